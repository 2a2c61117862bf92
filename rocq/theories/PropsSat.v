(** Properties C82-C84: streams watched over any stretch of cycles; adders and layers of any scale, which saturate; the in-stream
    multiplier; the gated unit against its real-valued counterpart. *)
From Coq Require Import String.
Require Import Verif.BaseLemmas Verif.GenModel Verif.AddModel Verif.KernelModel Verif.LinearModel Verif.ConvModel Verif.ChainSpec Verif.NameSpec Verif.NewSpec
  Verif.ProgSpec Verif.NetSpec Verif.CnnSpec Verif.SatSpec Verif.SatProof Verif.SatLinProof Verif.SatConvProof Verif.SatMulProof Verif.SatMguProof
  Verif.LinearProof Verif.ConvProof Verif.HubProof Verif.MguProof Verif.RnnModel Verif.MguModel.
Open Scope string_scope.
Open Scope list_scope.
Open Scope Z_scope.

(** C82. FSUAdd with any scale and any number of entries: over every stretch of cycles, wherever it starts, the result is the sum
    divided by the scale and clipped to the range of the encoding, up to the entries' own errors and a number of bits that does not
    grow with time; an adder that was used before may add what its accumulator holds. *)
Theorem C82_add : forall c m e s, fa_mode c = m ->
  resolved_entry None (fa_entry c) (Z.of_nat e) = Z.of_nat e -> resolved_scale None (fa_scale c) (Z.of_nat e) = s -> (0 < s)%Q ->
  forall (used : bool) h1 h2 (q K v : nat -> Q), (used = false -> h1 = []) ->
  Forall (fun col => bits col /\ List.length col = e) (h1 ++ h2) ->
  (forall i, (i < e)%nat -> (0 <= q i)%Q /\ (0 <= K i)%Q /\ steady m (q i) (K i) (v i) (map (fun col => nth i col 0) h2)) ->
  (qtotal e K + 2 * s <= Qpower 2 (fa_depth c - 2))%Q ->
  steady m (qtotal e q / s) (2 * qtotal e K / s + 1 + (if used then Qpower 2 (fa_depth c - 2) / s else 0)) (clip m (qtotal e v / s))
    (skipn (List.length h1) (outs (fsuadd_step c) (fsuadd_init c) (h1 ++ h2))).
Proof. exact @adder_steady. Qed.
Print Assumptions C82_add.
(** Three entries at scale 1/2: 1 + 1/2 - 1 over 1/2 is 1. After two cycles of zeros the accumulator has to recover first. *)
Definition ex_add : fsuadd_cfg := {| fa_mode := Bipolar; fa_scale := Some (1 # 2)%Q; fa_depth := 6; fa_entry := None |}.
Definition ex_cols : list (list Z) := [[1; 1; 0]; [1; 1; 0]; [1; 1; 0]; [1; 0; 0]].
Ltac every_stretch := let a := fresh "a" in let b := fresh "b" in let H := fresh "H" in intros a b H; rewrite map_length in H; change (List.length ex_cols) with 4%nat in H;
  destruct b as [|[|[|[|[|b]]]]]; try (exfalso; lia); destruct a as [|[|[|[|a]]]]; try (exfalso; lia); vm_compute; discriminate.
Example C82_add_ex : resolved_scale None (fa_scale ex_add) 3 = (1 # 2)%Q /\
  (forall i, (i < 3)%nat -> steady Bipolar 0 (3 # 4) (nth i [1; 1 # 2; - (1)]%Q 0%Q) (map (fun col => nth i col 0) ex_cols)) /\
  (qtotal 3 (fun _ => 3 # 4) + 2 * (1 # 2) <= Qpower 2 (fa_depth ex_add - 2))%Q /\
  (clip Bipolar (qtotal 3 (fun i => nth i [1; 1 # 2; - (1)]%Q 0) / (1 # 2)) == 1)%Q /\
  skipn 2 (outs (fsuadd_step ex_add) (fsuadd_init ex_add) ([[0; 0; 0]; [0; 0; 1]] ++ ex_cols ++ ex_cols)) = [0; 0; 1; 0; 1; 1; 1; 1] /\
  skipn 2 (outs (fsuadd_step ex_add) (fsuadd_init ex_add) ([[1; 1; 1]; [1; 1; 1]] ++ ex_cols)) = [1; 1; 1; 1].
Proof.
  split; [reflexivity|]. split; [|split; [vm_compute; discriminate|split; [reflexivity|split; reflexivity]]].
  intros i Hi. destruct i as [|[|[|i]]]; [| | |lia]; every_stretch.
Qed.
(** Bit streams generated from a Sobol sequence, from any cycle on. *)
Theorem C82_source : forall m ext w d v a n, (w <= 30)%nat -> dirvec_ok 30 (ext_dirvec ext d) -> src_ok m v ->
  steady m (grid_step m w / 2) (2 * inject_Z (Z.of_nat w)) v (bsgen_stream (bingen m w v) (rng_seq ext KSobol w d) (Z.of_nat a) n).
Proof. exact @source_steady. Qed.
Print Assumptions C82_source.
Definition ex_ext : rng_ext :=
  {| ext_dirvec := fun _ j => p2 (29 - j); ext_lfsr_next := fun s => s; ext_lfsr_init := []; ext_randperm := [] |}.
Lemma ex_dirvec : dirvec_ok 30 (ext_dirvec ex_ext 1).
Proof. intros j Hj. exists 1. split; [rewrite Z.mul_1_l; reflexivity|split; [reflexivity|]]. rewrite p2_S. pose proof (p2_pos j). lia. Qed.
Example C82_source_ex : bsgen_stream (bingen Bipolar 3 (1 # 3)) (rng_seq ex_ext KSobol 3 1) 5 12 = [0; 0; 1; 1; 1; 0; 1; 1; 0; 0; 1; 1].
Proof. vm_compute. reflexivity. Qed.
(** FSULinear with any scale: the affine map, divided by the scale and clipped. *)
Theorem C82_linear : forall ext w m_name r_name m L scale c a, builds_at ext w m_name r_name L scale (c, a) ->
  names_mode m_name m -> named r_name ["sobol"%string; "rc"%string] -> (1 <= w <= 30)%nat -> dirvec_ok 30 (ext_dirvec ext (ly_dim L)) ->
  Forall (Forall (src_ok m)) (ly_w L) -> src_opt m (ly_b L) ->
  forall B (used : bool) h1 h2 x q K, (1 <= B)%nat -> Forall (batch_ok B (ly_in L)) h1 -> Forall (batch_ok B (ly_in L)) h2 ->
  (used = false -> h1 = []) -> (0 <= q)%Q -> (0 <= K)%Q ->
  (forall b i, (b < B)%nat -> (i < ly_in L)%nat -> (Qabs (x b i) <= 1)%Q /\ steady m q K (x b i) (lane h2 b i)) ->
  let n := inject_Z (ly_entries L) in let s := scale_of (ly_entries L) scale in
  (0 < s)%Q -> (n * (K + layer_slack m w true) + 2 * s <= Qpower 2 (ly_depth L - 2))%Q ->
  exists os1 os2, outputs (run_r (flin_step c a) (flin_init c) (no_args (h1 ++ h2))) = Some (os1 ++ os2) /\
  length os1 = length h1 /\ length os2 = length h2 /\ Forall (batch_ok B (ly_out L)) os1 /\ Forall (batch_ok B (ly_out L)) os2 /\
  forall b o, (b < B)%nat -> (o < ly_out L)%nat ->
    steady m (n * (q + grid_step m w / 2) / s) (2 * (n * (K + layer_slack m w true)) / s + 1 + left_over used (ly_depth L) s)
      (clip m (affine L (x b) o / s)) (lane os2 b o).
Proof. exact @linear_steady. Qed.
Print Assumptions C82_linear.
Definition ex_L : layer := {| ly_in := 2; ly_out := 2; ly_bias := true; ly_w := [[1; 1 # 2]; [- (3 # 4); 1]]%Q; ly_b := Some [1 # 2; 0]%Q; ly_dim := 1; ly_depth := 9 |}.
Definition ex_h2 : list (list (list Z)) :=
  map (fun t => [[bsgen_bit (bingen Bipolar 6 (3 # 4)) (rng_seq ex_ext KSobol 6 1) (Z.of_nat t); bsgen_bit (bingen Bipolar 6 (1 # 2)) (rng_seq ex_ext KSobol 6 1) (Z.of_nat t)]]) (seq 0 64).
Definition ex_xs (i : nat) : Q := nth i [3 # 4; 1 # 2]%Q 0%Q.
(** At scale 1 the first output, 3/2, saturates; the second, -1/16, does not. *)
Example C82_linear_ex : (affine ex_L ex_xs 0 == 3 # 2)%Q /\ (affine ex_L ex_xs 1 == - (1 # 16))%Q /\ ly_entries ex_L = 3 /\
  (forall i, (i < 2)%nat -> lane ex_h2 0 i = bsgen_stream (bingen Bipolar 6 (ex_xs i)) (rng_seq ex_ext KSobol 6 1) 0 64) /\
  (3 * (2 * 6 + layer_slack Bipolar 6 true) + 2 * 1 <= Qpower 2 (ly_depth ex_L - 2))%Q /\
  exists ca os, builds_at ex_ext 6 "bipolar" "sobol" ex_L (Some 1%Q) ca /\ outputs (run_r (flin_step (fst ca) (snd ca)) (flin_init (fst ca)) (no_args ex_h2)) = Some os /\
    (value Bipolar (lane os 0 0) == 1)%Q /\ (value Bipolar (lane os 0 1) == - (1 # 16))%Q.
Proof.
  split; [vm_compute; reflexivity|]. split; [vm_compute; reflexivity|]. split; [reflexivity|].
  split; [intros i Hi; destruct i as [|[|i]]; [| |lia]; vm_compute; reflexivity|]. split; [vm_compute; discriminate|].
  eexists. eexists. split; [vm_compute; reflexivity|]. split; [vm_compute; reflexivity|]. split; vm_compute; reflexivity.
Qed.
(** FSUConv2d with any scale. The border counts as an input, whose stream alternates. *)
Theorem C82_conv : forall ext w m_name r_name m L scale c a, cbuilds_at ext w m_name r_name L scale (c, a) ->
  names_mode m_name m -> named r_name ["sobol"%string; "rc"%string] -> (1 <= w <= 30)%nat -> dirvec_ok 30 (ext_dirvec ext (cl_dim L)) ->
  tensor_ok (src_ok m) (cl_out L) (cl_in L) (fst (cl_kernel L)) (snd (cl_kernel L)) (cl_w L) -> src_opt m (cl_b L) ->
  forall N H W ho wo (used : bool) h1 h2 (X : nat -> nat -> nat -> nat -> Q) q K,
  conv_sizes (cl_kernel L) (cl_stride L) (cl_dil L) (cl_pad L) (cl_in L) H W ho wo -> (1 <= N)%nat ->
  Forall (tensor_ok bit N (cl_in L) H W) h1 -> Forall (tensor_ok bit N (cl_in L) H W) h2 ->
  (used = false -> h1 = []) -> (0 <= q)%Q -> ((1 # 2) <= K)%Q ->
  (forall n k y x, (n < N)%nat -> (k < cl_in L)%nat -> (y < H)%nat -> (x < W)%nat -> (Qabs (X n k y x) <= 1)%Q /\ steady m q K (X n k y x) (lane4 h2 n k y x)) ->
  let e := inject_Z (cl_entries L) in let s := scale_of (cl_entries L) scale in
  (0 < s)%Q -> (e * (K + layer_slack m w true) + 2 * s <= Qpower 2 (cl_depth L - 2))%Q ->
  exists os1 os2, outputs (run_r (fconv_step c a) (fconv_init c) (no_args4 (h1 ++ h2))) = Some (os1 ++ os2) /\
  length os1 = length h1 /\ length os2 = length h2 /\ Forall (tensor_ok bit N (cl_out L) ho wo) os1 /\ Forall (tensor_ok bit N (cl_out L) ho wo) os2 /\
  forall n o y x, (n < N)%nat -> (o < cl_out L)%nat -> (y < ho)%nat -> (x < wo)%nat ->
    steady m (e * (q + grid_step m w / 2) / s) (2 * (e * (K + layer_slack m w true)) / s + 1 + left_over used (cl_depth L) s)
      (clip m (caffine L H W (X n) o y x / s)) (lane4 os2 n o y x).
Proof. exact @conv_steady. Qed.
Print Assumptions C82_conv.
Definition ex_C : clayer := {| cl_in := 1; cl_out := 1; cl_kernel := (1, 2)%nat; cl_stride := (1, 1)%nat; cl_dil := (1, 1)%nat; cl_pad := 1; cl_bias := false;
  cl_w := [[[[1; 1 # 2]]]]%Q; cl_b := None; cl_dim := 1; cl_depth := 9 |}.
Definition ex_imgs : list (list (list (list (list Z)))) :=
  map (fun t => [[[[bsgen_bit (bingen Bipolar 4 (3 # 4)) (rng_seq ex_ext KSobol 4 1) (Z.of_nat t); bsgen_bit (bingen Bipolar 4 1) (rng_seq ex_ext KSobol 4 1) (Z.of_nat t)]]]]) (seq 0 16).
Example C82_conv_ex : let X := fun _ _ x : nat => nth x [3 # 4; 1]%Q 0%Q in
  (caffine ex_C 1 2 X 0 1 0 == 3 # 8)%Q /\ (caffine ex_C 1 2 X 0 1 1 == 5 # 4)%Q /\ cl_entries ex_C = 2 /\
  exists ca os, cbuilds_at ex_ext 4 "bipolar" "sobol" ex_C (Some 1%Q) ca /\ outputs (run_r (fconv_step (fst ca) (snd ca)) (fconv_init (fst ca)) (no_args4 ex_imgs)) = Some os /\
    (value Bipolar (lane4 os 0 0 1 0) == 1 # 4)%Q /\ (value Bipolar (lane4 os 0 0 1 1) == 1)%Q.
Proof.
  split; [vm_compute; reflexivity|]. split; [vm_compute; reflexivity|]. split; [reflexivity|].
  eexists. eexists. split; [vm_compute; reflexivity|]. split; [vm_compute; reflexivity|]. split; vm_compute; reflexivity.
Qed.

(** C83. The in-stream multiplier FSUMul, whose second operand is itself a stream, counted over the last 2^w cycles: after any use,
    over every stretch, the product of the values, up to the errors of the operands, the ripple of the window, K1 bits in 2^w, and
    a number of bits that does not grow with time. *)
Theorem C83_instream : forall m ext w d h1 h2 v0 v1 q0 K0 q1 K1,
  (w <= 30)%nat -> dirvec_ok 30 (ext_dirvec ext d) -> pair_bits h1 -> pair_bits h2 -> src_ok m v0 -> src_ok m v1 ->
  (0 <= q0)%Q -> (0 <= q1)%Q -> (0 <= K0)%Q -> (0 <= K1)%Q ->
  steady m q0 K0 v0 (map fst h2) -> steady m q1 K1 v1 (map snd h2) ->
  steady m (q0 + q1 + span m * K1 / inject_Z (p2 w)) (K0 + layer_slack m w true + inject_Z (p2 w)) (v0 * v1)
    (skipn (length h1) (outs (fsumul_is_step m w (rng_seq ext KSobol w d)) (fsumul_is_init w) (h1 ++ h2))).
Proof. exact @instream_steady. Qed.
Print Assumptions C83_instream.
Example C83_ex : let m := fun k (v : Q) => bsgen_stream (bingen Bipolar 6 v) (rng_seq ex_ext KSobol 6 k) 0 64 in
  let h := combine (m 1%nat (1 # 2)%Q) (m 1%nat (- (1 # 2))%Q) in
  pair_bits h /\ src_ok Bipolar (1 # 2) /\ src_ok Bipolar (- (1 # 2)) /\
  (value Bipolar (skipn 4 (outs (fsumul_is_step Bipolar 3 (rng_seq ex_ext KSobol 3 1)) (fsumul_is_init 3) ([(1, 1); (0, 1); (1, 1); (1, 1)]%Z ++ h))) == - (7 # 32))%Q.
Proof.
  cbv zeta. split; [|split; [split; discriminate|split; [split; discriminate|vm_compute; reflexivity]]].
  apply Forall_forall. intros p Hp. destruct p as [a b]. split; [apply in_combine_l in Hp|apply in_combine_r in Hp]; apply in_map_iff in Hp; destruct Hp as (t & <- & _); apply GenProof.bsgen_bit_bit.
Qed.

(** C84. FSUMGUCell against the minimal gated unit on real numbers: every internal stream and the result follow their real-valued
    counterparts over every stretch of cycles. *)
Theorem C84_cell : forall ext I H bias wf bf wn bn hxb w mn depth wm rn dimr c,
  mgu_new ext I H bias (Some wf) bf (Some wn) bn (Some hxb) w mn depth wm rn dimr = Ok c ->
  named rn ["sobol"%string; "rc"%string] -> (1 <= w <= 30)%nat -> (wm <= 30)%nat -> (forall k, (k < 4)%nat -> dirvec_ok 30 (ext_dirvec (ext k) dimr)) ->
  Forall (Forall (src_ok Bipolar)) wf -> src_opt Bipolar bf -> Forall (Forall (src_ok Bipolar)) wn -> src_opt Bipolar bn ->
  forall B calls x q K, (1 <= B)%nat -> qshape B H hxb -> Forall (Forall (src_ok Bipolar)) hxb ->
  Forall (fun p => batch_ok B I (fst p) /\ batch_ok B H (snd p)) calls -> (0 <= q)%Q -> (0 <= K)%Q ->
  (forall b i, (b < B)%nat -> (i < I)%nat -> src_ok Bipolar (x b i) /\ steady Bipolar q K (x b i) (lane (map fst calls) b i)) ->
  (forall b j, (b < B)%nat -> (j < H)%nat -> steady Bipolar q K (qentry hxb b j) (lane (map snd calls) b j)) ->
  let n := inject_Z (Z.of_nat (H + I) + b2z bias) in
  (g_K n w K + p_K n w wm K + h_K n w K + 2 <= Qpower 2 (depth - 2))%Q ->
  exists os, outputs (run_r (mgu_step c) (mgu_init c) calls) = Some os /\ length os = length calls /\
  forall b j, (b < B)%nat -> (j < H)%nat ->
    let bf := bias_entry (if bias then bf else None) in let bn := bias_entry (if bias then bn else None) in
    let h := qentry hxb b in
    let f := mgu_forget (fun v => v) H I (qentry wf) bf h (x b) j in
    let g := Spec.mgu_new (fun v => v) H I (qentry wf) (qentry wn) bf bn h (x b) j in
    steady Bipolar (f_q n w q) (f_K n w K) f (lane (map mo_fg os) b j) /\
    steady Bipolar (h_q n w q) (h_K n w K) (f * h j) (lane (map mo_fg_hx os) b j) /\
    steady Bipolar (g_q n w q) (g_K n w K) g (lane (map mo_ng os) b j) /\
    steady Bipolar (p_q n w wm q K) (p_K n w wm K) (f * g) (lane (map mo_fg_ng os) b j) /\
    steady Bipolar (y_q n w wm q K) (y_K n w wm K) (Spec.mgu_next H I (qentry wf) (qentry wn) bf bn h (x b) j) (lane (map mo_hy os) b j).
Proof. exact @mgu_steady. Qed.
Print Assumptions C84_cell.
(** HUBMGUCell against HardMGUCell with the same parameters. *)
Theorem C84_hub : forall ext I H bias wf bf wn bn w mn depth wm rn dimr input hx,
  lower mn = "bipolar"%string -> named rn ["sobol"%string; "rc"%string] -> (1 <= w <= 30)%nat -> (wm <= 30)%nat ->
  (forall k, (k < 6)%nat -> dirvec_ok 30 (ext_dirvec (ext k) dimr)) -> mgu_args_ok I H bias wf wn bf bn ->
  Forall (Forall (src_ok Bipolar)) wf -> src_opt Bipolar bf -> Forall (Forall (src_ok Bipolar)) wn -> src_opt Bipolar bn ->
  (1 <= length input)%nat -> qshape (length input) I input -> Forall (Forall (src_ok Bipolar)) input ->
  match hx with None => True | Some h => qshape (length input) H h /\ Forall (Forall (src_ok Bipolar)) h end ->
  let n := inject_Z (Z.of_nat (H + I) + b2z bias) in let q := (grid_step Bipolar w / 2)%Q in let K := (2 * inject_Z (Z.of_nat w))%Q in
  (g_K n w K + p_K n w wm K + h_K n w K + 2 <= Qpower 2 (depth - 2))%Q ->
  let par := {| mg_wf := wf; mg_bf := if bias then bf else None; mg_wn := wn; mg_bn := if bias then bn else None |} in
  exists y, hubmgu ext I H bias (Some wf) bf (Some wn) bn w mn depth wm rn dimr input hx = Ok y /\ qshape (length input) H y /\
  forall b j, (b < length input)%nat -> (j < H)%nat ->
    (Qabs (qentry y b j - qentry (mv_hy (hardmgu_forward H par input hx)) b j) <= y_q n w wm q K + 2 * y_K n w wm K / Qpower 2 (Z.of_nat w))%Q.
Proof. exact @hubmgu_error. Qed.
Print Assumptions C84_hub.
(** With one input, one hidden unit and a bias, 30 bit operands, a 20 bit window and an accumulator of 24 bits or more the two cells differ
    by less than 1/50. *)
Example C84_ex : let n := inject_Z (Z.of_nat (1 + 1) + b2z true) in let q := (grid_step Bipolar 30 / 2)%Q in let K := (2 * inject_Z (Z.of_nat 30))%Q in
  (g_K n 30 K + p_K n 30 20 K + h_K n 30 K + 2 <= Qpower 2 (24 - 2))%Q /\
  (y_q n 30 20 q K + 2 * y_K n 30 20 K / Qpower 2 (Z.of_nat 30) < 1 # 50)%Q.
Proof. split; vm_compute; [discriminate|reflexivity]. Qed.
Definition ex_par : mgu_par := {| mg_wf := [[1 # 2; - (1 # 2)]]%Q; mg_bf := Some [1 # 2]%Q; mg_wn := [[1; 1 # 2]]%Q; mg_bn := Some [0]%Q |}.
Example C84_ex_run : mgu_args_ok 1 1 true (mg_wf ex_par) (mg_wn ex_par) (mg_bf ex_par) (mg_bn ex_par) /\
  (qentry (mv_hy (hardmgu_forward 1 ex_par [[1 # 2]]%Q (Some [[1 # 4]]%Q))) 0 0 == 311 # 1024)%Q /\
  match hubmgu (fun _ => ex_ext) 1 1 true (Some (mg_wf ex_par)) (mg_bf ex_par) (Some (mg_wn ex_par)) (mg_bn ex_par) 6 "bipolar" 10 4 "Sobol" 1 [[1 # 2]]%Q (Some [[1 # 4]]%Q) with
  | Ok [[y]] => (y == 11 # 32)%Q
  | _ => False
  end.
Proof. split; [repeat split; intros _; exists [1 # 2]%Q, [0]%Q; repeat split|]. split; vm_compute; reflexivity. Qed.
