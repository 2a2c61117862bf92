(** Properties C80 and C81: counters, streams and sums in the element types of torch. *)
Require Import Verif.BaseLemmas Verif.GenModel Verif.GenProof Verif.KernelModel Verif.ShuffleModel Verif.AddModel Verif.LinearModel Verif.LinearProof
  Verif.ConvModel Verif.ConvProof Verif.DtypeSpec Verif.DtypeProof Verif.DtypeCountProof Verif.DtypeSyncProof Verif.DtypeLayerProof.
Open Scope Z_scope.

(** ** C80 *)
(** What a conversion does: it gives a number of the type, keeps the numbers of the type, wraps around in integer types and goes to a
    nearest number, ties to even, in float types. *)
Theorem C80_conversion : forall dt z, In dt torch_dtypes ->
  holds dt (cast dt z) /\ (holds dt z -> cast dt z = z) /\
  match dt with
  | SInt b | UInt b => exists k, cast dt z = z + k * 2 ^ Z.of_nat b
  | Flt p emax =>
      (forall y, holds dt y -> Z.abs (z - cast dt z) <= Z.abs (z - y)) /\
      exists m e, 0 <= e /\ Z.abs m <= 2 ^ Z.of_nat p /\ cast dt z = m * 2 ^ e /\
        2 * Z.abs (z - m * 2 ^ e) <= 2 ^ e /\ (2 * Z.abs (z - m * 2 ^ e) = 2 ^ e -> Z.Even m)
  end.
Proof. exact dt_conversion. Qed.
Print Assumptions C80_conversion.

Example C80_conversion_ex : In t_bfloat16 torch_dtypes /\ cast t_bfloat16 257 = 256 /\ cast t_bfloat16 259 = 260 /\
  cast t_int8 128 = -128 /\ cast t_uint8 (-1) = 255 /\ cast t_float16 2049 = 2048 /\ cast t_float32 (2 ^ 25 - 1) = 2 ^ 25.
Proof. split; [cbn; tauto|]. repeat split; vm_compute; reflexivity. Qed.

(** The types by name: their list, the integers an integer type keeps, the integers up to which a float type keeps all, and the range. *)
Theorem C80_types :
  (forall dt, In dt torch_dtypes <-> dt = t_uint8 \/ dt = t_int8 \/ dt = t_int16 \/ dt = t_int32 \/ dt = t_int64 \/
     dt = t_float16 \/ dt = t_bfloat16 \/ dt = t_float32 \/ dt = t_float64) /\
  (forall z, cast t_uint8 z = z <-> 0 <= z <= 255) /\ (forall z, cast t_int8 z = z <-> -128 <= z <= 127) /\
  (forall z, cast t_int16 z = z <-> -32768 <= z <= 32767) /\ (forall z, cast t_int32 z = z <-> -2147483648 <= z <= 2147483647) /\
  (forall z, cast t_int64 z = z <-> -9223372036854775808 <= z <= 9223372036854775807) /\
  (forall z, Z.abs z <= 2048 -> cast t_float16 z = z) /\ cast t_float16 2049 = 2048 /\
  (forall z, Z.abs z <= 256 -> cast t_bfloat16 z = z) /\ cast t_bfloat16 257 = 256 /\
  (forall z, Z.abs z <= 16777216 -> cast t_float32 z = z) /\ cast t_float32 16777217 = 16777216 /\
  (forall z, Z.abs z <= 9007199254740992 -> cast t_float64 z = z) /\ cast t_float64 9007199254740993 = 9007199254740992 /\
  (forall z, dt_range t_float16 z <-> Z.abs z <= 2 ^ 15) /\ (forall z, dt_range t_bfloat16 z <-> Z.abs z <= 2 ^ 127) /\
  (forall z, dt_range t_float32 z <-> Z.abs z <= 2 ^ 127) /\ (forall z, dt_range t_float64 z <-> Z.abs z <= 2 ^ 1023).
Proof. exact dt_types. Qed.
Print Assumptions C80_types.

(** FSUReLU: for every stream the same output as with an unbounded counter, if and only if the depth is at most [room0]. *)
Theorem C80_relu : forall dt d, In dt torch_dtypes -> dt_range dt (p2 (S d) - 1) ->
  (forall xs, bits xs -> outs (relu_dt_step dt d) (relu_dt_init dt d) xs = outs (fsurelu_step d) (fsurelu_init d) xs) <->
  (S d <= room0 dt)%nat.
Proof. exact @relu_dt_iff. Qed.
Print Assumptions C80_relu.

(** One bit beyond that: a signed counter wraps to zero after 2^d ones, and the next 2^d output bits are ones whatever comes in. *)
Theorem C80_relu_wraps : forall b d xs, In (SInt b) torch_dtypes -> S d = (b - 1)%nat -> bits xs -> zlen xs <= p2 d ->
  final (relu_dt_step (SInt b) d) (p2 d) (repeat 1 (2 ^ d)) = 0 /\
  outs (relu_dt_step (SInt b) d) 0 xs = repeat 1 (length xs).
Proof. exact relu_dt_signed. Qed.
Print Assumptions C80_relu_wraps.

(** Beyond it in a float type: with depth p + 1 the module behaves as one of depth 1, deeper ones pass every stream unchanged. *)
Theorem C80_relu_float : forall p emax d xs, In (Flt p emax) torch_dtypes -> bits xs -> (p <= d)%nat ->
  outs (relu_dt_step (Flt p emax) d) (relu_dt_init (Flt p emax) d) xs =
  if (d =? p)%nat then outs (fsurelu_step 0) (fsurelu_init 0) xs else xs.
Proof. exact relu_dt_float. Qed.
Print Assumptions C80_relu_float.

Example C80_relu_ex :
  In t_int8 torch_dtypes /\ dt_range t_int8 (p2 7 - 1) /\ room0 t_int8 = 6%nat /\
  outs (relu_dt_step t_int8 6) (relu_dt_init t_int8 6) (repeat 1 64 ++ repeat 0 64) = repeat 1 128 /\
  outs (fsurelu_step 6) (fsurelu_init 6) (repeat 1 64 ++ repeat 0 64) = repeat 1 64 ++ repeat 0 64 /\
  outs (relu_dt_step t_bfloat16 9) (relu_dt_init t_bfloat16 9) (repeat 0 6) = repeat 0 6 /\
  outs (fsurelu_step 9) (fsurelu_init 9) (repeat 0 6) = [0; 1; 0; 1; 0; 1].
Proof. split; [cbn; tauto|]. split; [vm_compute; split; congruence|]. repeat split; vm_compute; reflexivity. Qed.

(** FSUSignAbs: exact for every stream if and only if the counter type has room, the depth is at most 24 (its constants pass through
    float32), and -1 survives the conversion from the type of the stream. *)
Theorem C80_signabs : forall it bt d, In it torch_dtypes -> In bt torch_dtypes -> dt_range bt (cast t_float32 (p2 (S d) - 1)) ->
  (forall xs, bits xs -> outs (signabs_dt_step it bt d) (signabs_dt_init bt d) xs = outs (fsusignabs_step d) (fsusignabs_init d) xs) <->
  (S d <= Nat.min (room bt) 24)%nat /\ keeps_minus it bt.
Proof. exact @signabs_dt_iff. Qed.
Print Assumptions C80_signabs.

(** A stream of type uint8 with a wider counter: -1 is 255, no sign is ever seen. *)
Theorem C80_signabs_unsigned : forall bt d xs, In bt torch_dtypes -> match bt with UInt _ => False | _ => True end -> ~ keeps_minus t_uint8 bt ->
  dt_range bt (cast t_float32 (p2 (S d) - 1)) -> (S d <= room bt)%nat -> bits xs ->
  outs (signabs_dt_step t_uint8 bt d) (signabs_dt_init bt d) xs = map (fun x => (0, x)) xs.
Proof. exact signabs_unsigned. Qed.
Print Assumptions C80_signabs_unsigned.

Example C80_signabs_ex :
  In t_uint8 torch_dtypes /\ In t_float32 torch_dtypes /\ ~ keeps_minus t_uint8 t_float32 /\ dt_range t_float32 (cast t_float32 (p2 2 - 1)) /\
  outs (signabs_dt_step t_uint8 t_float32 1) (signabs_dt_init t_float32 1) [0; 0; 1; 0] = [(0, 0); (0, 0); (0, 1); (0, 0)] /\
  outs (fsusignabs_step 1) (fsusignabs_init 1) [0; 0; 1; 0] = [(1, 1); (1, 1); (1, 0); (1, 1)] /\
  outs (signabs_dt_step t_int8 t_float32 1) (signabs_dt_init t_float32 1) [0; 0; 1; 0] = [(1, 1); (1, 1); (1, 0); (1, 1)].
Proof.
  split; [cbn; tauto|]. split; [cbn; tauto|]. split; [cbn; tauto|]. split; [vm_compute; congruence|]. repeat split; vm_compute; reflexivity.
Qed.

(** SkewedSync, the same three conditions. *)
Theorem C80_sync : forall st bt depth, In st torch_dtypes -> In bt torch_dtypes -> (1 <= depth)%nat ->
  dt_range bt (cast t_float32 (p2 depth - 1)) ->
  (forall h, Forall bit2 h -> outs (sync_dt_step st bt depth) 0 h = outs (skewedsync_step depth) skewedsync_init h) <->
  (depth <= Nat.min (room bt) 24)%nat /\ keeps_minus st bt.
Proof. exact @sync_dt_iff. Qed.
Print Assumptions C80_sync.

(** With streams of type uint8 and a wider counter, ones appear in the first stream that it never had: after one bit (0, 1) every
    further (0, 1) comes out as (1, 1). *)
Theorem C80_sync_unsigned : forall bt depth k, In bt torch_dtypes -> match bt with UInt _ => False | SInt b => (depth <= b - 2)%nat | _ => True end ->
  ~ keeps_minus t_uint8 bt -> (1 <= depth)%nat -> dt_range bt (cast t_float32 (p2 depth - 1)) ->
  outs (sync_dt_step t_uint8 bt depth) 0 (repeat (0, 1) (S k)) = (0, 1) :: repeat (1, 1) k.
Proof. exact sync_unsigned. Qed.
Print Assumptions C80_sync_unsigned.

(** A signed counter of b bits at depth b - 1 forgets 2^depth - 1 stored ones. *)
Theorem C80_sync_wraps : forall st b depth, In st torch_dtypes -> In (SInt b) torch_dtypes -> depth = (b - 1)%nat -> (depth <= 24)%nat ->
  final (sync_dt_step st (SInt b) depth) 0 (repeat (1, 0) (2 ^ depth)) = 0 /\
  outs (sync_dt_step st (SInt b) depth) 0 (repeat (1, 0) (2 ^ depth)) = repeat (0, 0) (2 ^ depth - 1) ++ [(1, 0)].
Proof. exact @sync_dt_wrap. Qed.
Print Assumptions C80_sync_wraps.

Example C80_sync_ex :
  outs (sync_dt_step t_uint8 t_int32 2) 0 [(0, 1); (0, 1); (0, 1)] = [(0, 1); (1, 1); (1, 1)] /\
  outs (skewedsync_step 2) skewedsync_init [(0, 1); (0, 1); (0, 1)] = [(0, 1); (0, 1); (0, 1)] /\
  In (SInt 8) torch_dtypes /\ final (sync_dt_step t_int8 t_int8 7) 0 (repeat (1, 0) 128) = 0 /\
  final (skewedsync_step 7) skewedsync_init (repeat (1, 0) 128) = 127.
Proof. split; [vm_compute; reflexivity|]. split; [vm_compute; reflexivity|]. split; [cbn; tauto|]. split; vm_compute; reflexivity. Qed.

(** Bi2Uni in a float type of p bits is a Bi2Uni with at most 2^p of memory; integer types are always exact. *)
Theorem C80_bi2uni : forall bt d2, In bt torch_dtypes -> dt_range bt (p2 d2) -> dt_range bt (- p2 d2) ->
  (forall xs, bits xs -> outs (bi2uni_dt_step bt d2) 0 xs = outs (bi2uni_step (acc_bits bt d2)) bi2uni_init xs) /\
  ((forall xs, bits xs -> outs (bi2uni_dt_step bt d2) 0 xs = outs (bi2uni_step d2) bi2uni_init xs) <->
   match bt with Flt p _ => (d2 <= p)%nat | _ => True end).
Proof. exact bi2uni_dt_both. Qed.
Print Assumptions C80_bi2uni.

(** Uni2Bi is exact in every type that holds its bound. *)
Theorem C80_uni2bi : forall bt d2 xs, In bt torch_dtypes -> dt_range (wide_dt bt) (p2 d2) -> bits xs ->
  outs (uni2bi_dt_step bt d2) 0 xs = outs (uni2bi_step d2) uni2bi_init xs.
Proof. exact @uni2bi_dt_exact. Qed.
Print Assumptions C80_uni2bi.

Example C80_bi2uni_ex : In t_bfloat16 torch_dtypes /\ dt_range t_bfloat16 (p2 10) /\ dt_range t_bfloat16 (- p2 10) /\ acc_bits t_bfloat16 10 = 8%nat /\
  final (bi2uni_dt_step t_bfloat16 10) 0 (repeat 0 300) = -256 /\ final (bi2uni_step 10) bi2uni_init (repeat 0 300) = -300 /\
  dt_range (wide_dt t_uint8) (p2 3) /\ outs (uni2bi_dt_step t_uint8 3) 0 [1; 0; 1; 1; 0] = [1; 0; 1; 1; 1].
Proof.
  split; [cbn; tauto|]. split; [vm_compute; congruence|]. split; [vm_compute; congruence|].
  split; [reflexivity|]. split; [vm_compute; reflexivity|]. split; [vm_compute; reflexivity|]. split; [vm_compute; split; congruence|].
  vm_compute; reflexivity.
Qed.

(** ** C81 *)
(** BinGen, RNG and BSGen: every source gives the exact stream if and only if the width is at most [room0] of the rtype. *)
Theorem C81_generator : forall rt w rng m, In rt torch_dtypes -> perm_seq w rng ->
  (forall s start n, src_ok m s ->
     bsgen_stream (bingen_dt rt m w s) (map (cast rt) rng) start n = bsgen_stream (bingen m w s) rng start n) <->
  (w <= room0 rt)%nat.
Proof. exact @gen_dt_iff. Qed.
Print Assumptions C81_generator.

(** The same with the sequence RNG makes in its rtype, and when that sequence is the exact one. *)
Theorem C81_generator_rng : forall rt ext k w d m, In rt torch_dtypes -> perm_seq w (rng_seq ext k w d) ->
  (forall s start n, src_ok m s ->
     bsgen_stream (bingen_dt rt m w s) (rng_seq_dt rt ext k w d) start n = bsgen_stream (bingen m w s) (rng_seq ext k w d) start n) <->
  (w <= room0 rt)%nat.
Proof. exact gen_rng_dt_iff. Qed.
Print Assumptions C81_generator_rng.
Theorem C81_rng : forall rt ext k w d, In rt torch_dtypes -> perm_seq w (rng_seq ext k w d) ->
  (rng_seq_dt rt ext k w d = rng_seq ext k w d <-> 2 ^ Z.of_nat w - 1 <= max_count rt).
Proof. exact rng_dt_iff. Qed.
Print Assumptions C81_rng.
Example C81_rng_ex :
  let ext := {| ext_dirvec := fun _ _ => 0; ext_lfsr_next := fun l => l; ext_lfsr_init := []; ext_randperm := [] |} in
  nth 128 (rng_seq_dt t_int8 ext KAsc 8 1) 0 = -128 /\ nth 128 (rng_seq ext KAsc 8 1) 0 = 128 /\ max_count t_int8 = 127 /\
  rng_seq_dt t_uint8 ext KAsc 8 1 = rng_seq ext KAsc 8 1.
Proof. vm_compute. repeat split; reflexivity. Qed.

(** One bit beyond that: in a signed type full scale is silent; in a float type 2^p + 1 has the stream of 2^p. *)
Theorem C81_generator_silent : forall b w rng start n, In (SInt b) torch_dtypes -> w = (b - 1)%nat -> perm_seq w rng ->
  bsgen_stream (cast (SInt b) (p2 w)) (map (cast (SInt b)) rng) start n = repeat 0 n.
Proof. exact gen_silent. Qed.
Print Assumptions C81_generator_silent.
Theorem C81_generator_merges : forall p emax w rng start n, In (Flt p emax) torch_dtypes -> (p < w)%nat ->
  bsgen_stream (cast (Flt p emax) (p2 p + 1)) (map (cast (Flt p emax)) rng) start n =
  bsgen_stream (cast (Flt p emax) (p2 p)) (map (cast (Flt p emax)) rng) start n.
Proof. exact gen_merges. Qed.
Print Assumptions C81_generator_merges.

(** The counting sequence of width 7. *)
Definition ex_count7 : list Z := map Z.of_nat (seq 0 128).
Example C81_generator_ex : In t_int8 torch_dtypes /\ perm_seq 7 (ex_count7) /\ room0 t_int8 = 6%nat /\
  bingen_dt t_int8 Unipolar 7 1 = -128 /\ src_ok Unipolar 1 /\
  bsgen_stream (bingen_dt t_int8 Unipolar 7 1) (map (cast t_int8) (ex_count7)) 0 3 = [0; 0; 0] /\
  bsgen_stream (bingen Unipolar 7 1) (ex_count7) 0 3 = [1; 1; 1].
Proof.
  split; [cbn; tauto|]. split; [apply Permutation_refl|]. split; [reflexivity|]. split; [vm_compute; reflexivity|].
  split; [split; vm_compute; congruence|]. split; vm_compute; reflexivity.
Qed.

(** FSULinearPC and FSUConv2dPC: the counts of any history are the exact ones if entries and bias are at most [max_count]; that is the
    largest number for which a type holds all counts, and full-scale weights with an input of ones reach it. *)
Theorem C81_counter : forall st c B h, In st torch_dtypes -> flin_entry c <= max_count st ->
  pc_shape c -> rng_ok c -> (1 <= B)%nat -> Forall (batch_ok B (pc_in c)) h ->
  outputs (run_r (pc_dt_step st c) (pc_init c) h) = outputs (run_r (pc_step c) (pc_init c) h).
Proof. exact @pc_dt_exact. Qed.
Print Assumptions C81_counter.
Theorem C81_counter_conv : forall st c p N H W ho wo h, In st torch_dtypes -> flin_entry (cv_pc c) <= max_count st ->
  conv_geom c p H W ho wo -> (1 <= N)%nat -> Forall (tensor_ok bit N (cv_chan c) H W) h ->
  outputs (run_r (conv_dt_step st c) (conv_init c) h) = outputs (run_r (conv_step c) (conv_init c) h).
Proof. exact @conv_dt_exact. Qed.
Print Assumptions C81_counter_conv.
Theorem C81_counts : forall dt n, In dt torch_dtypes -> 0 <= n ->
  ((forall k, 0 <= k <= n -> cast dt k = k) <-> n <= max_count dt).
Proof. exact @counts_iff. Qed.
Print Assumptions C81_counts.
Theorem C81_counter_full : forall st c B n, pc_shape c -> rng_ok c -> saturated c -> (1 <= B)%nat ->
  let h := repeat (repeat (repeat 1 (pc_in c)) B) n in
  outputs (run_r (pc_step c) (pc_init c) h) = Some (repeat (repeat (repeat (flin_entry c) (pc_out c)) B) n) /\
  outputs (run_r (pc_dt_step st c) (pc_init c) h) = Some (repeat (repeat (repeat (cast st (flin_entry c)) (pc_out c)) B) n).
Proof. exact pc_full_both. Qed.
Print Assumptions C81_counter_full.

Definition ex_dt_pc : pc_cfg :=
  {| pc_mode := Unipolar; pc_wtc := false; pc_in := 128; pc_out := 1; pc_weight := [repeat 4 128]; pc_bias := None; pc_rng := [0; 2; 1; 3] |}.
Example C81_counter_ex : pc_shape ex_dt_pc /\ rng_ok ex_dt_pc /\ saturated ex_dt_pc /\ flin_entry ex_dt_pc = 128 /\ max_count t_int8 = 127 /\
  max_count t_uint8 = 255 /\ max_count t_bfloat16 = 256 /\ cast t_int8 128 = -128 /\
  outputs (run_r (pc_dt_step t_int8 ex_dt_pc) (pc_init ex_dt_pc) [[repeat 1 128]; [1 :: repeat 0 127]]) = Some [[[-128]]; [[1]]] /\
  outputs (run_r (pc_dt_step t_uint8 ex_dt_pc) (pc_init ex_dt_pc) [[repeat 1 128]; [1 :: repeat 0 127]]) = Some [[[128]]; [[1]]].
Proof.
  split; [repeat split; repeat constructor|]. split; [unfold rng_ok; cbn; lia|]. split.
  - split; [|exact Logic.I]. intros o i v Ho Hi Hv. cbn in Ho. replace o with 0%nat by lia. unfold entry2, ex_dt_pc, pc_weight.
    cbn [nth]. rewrite nth_repeat_lt by exact Hi. cbn in Hv. lia.
  - repeat split; vm_compute; reflexivity.
Qed.

(** FSUAdd, scaled: exact for every history of columns if and only if the columns have at most 2^p entries; no limit for integers. *)
Theorem C81_adder : forall bt c e, In bt torch_dtypes -> 0 < e ->
  resolved_entry None (fa_entry c) e = e -> (resolved_scale None (fa_scale c) e == inject_Z e)%Q ->
  (inject_Z (2 * e - 1) <= qpow2 (fa_depth c - 2))%Q ->
  ((forall cols, Forall bits cols -> Forall (fun col => zlen col = e) cols ->
     outs (fsuadd_dt_step bt c) (fsuadd_init c) cols = outs (fsuadd_step c) (fsuadd_init c) cols) <-> add_fits bt e).
Proof. exact @fsuadd_dt_iff. Qed.
Print Assumptions C81_adder.

(** Any scale, depth and mode, from any state: exact as long as the columns fit. *)
Theorem C81_adder_any : forall bt c e, In bt torch_dtypes -> add_fits bt e ->
  forall cols s, Forall bits cols -> Forall (fun col => zlen col = e) cols ->
  outs (fsuadd_dt_step bt c) s cols = outs (fsuadd_step c) s cols.
Proof. exact @fsuadd_dt_exact. Qed.
Print Assumptions C81_adder_any.

Example C81_adder_ex : let c := {| fa_mode := Unipolar; fa_scale := None; fa_depth := 12; fa_entry := None |} in
  In t_bfloat16 torch_dtypes /\ (inject_Z (2 * 257 - 1) <= qpow2 (fa_depth c - 2))%Q /\ ~ add_fits t_bfloat16 257 /\
  outs (fsuadd_dt_step t_bfloat16 c) (fsuadd_init c) [repeat 1 257; repeat 1 257] = [0; 1] /\
  outs (fsuadd_step c) (fsuadd_init c) [repeat 1 257; repeat 1 257] = [1; 1] /\
  outs (fsuadd_dt_step t_uint8 c) (fsuadd_init c) [repeat 1 257; repeat 1 257] = [1; 1].
Proof.
  split; [cbn; tauto|]. split; [vm_compute; congruence|]. split; [vm_compute; congruence|]. repeat split; vm_compute; reflexivity.
Qed.
