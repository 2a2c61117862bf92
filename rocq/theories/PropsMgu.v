(** Properties C64-C66: FSUMGUCell and HUBMGUCell of /repo/kernel/rnn.py. *)
From Coq Require Import String.
Require Import Verif.BaseLemmas Verif.GenModel Verif.AddModel Verif.KernelModel Verif.LinearModel Verif.ChainSpec
  Verif.LinearProof Verif.HubProof Verif.MguProof Verif.RnnModel Verif.MguModel.
Open Scope string_scope.
Open Scope list_scope.
Open Scope Z_scope.

(** C64. A run of FSUMGUCell, entry by entry, is the composition of its seven modules run separately: the two linear layers
    on the concatenated streams, the scaled adder with a constant 1, the static multiplier, the in-stream multiplier and the
    adder with scale 1. *)
Theorem C64_cell : forall c B h, mgu_shape c -> (1 <= B)%nat -> hx_shape c B -> Forall (call_ok B c) h ->
  exists os, outputs (run_r (mgu_step c) (mgu_init c) h) = Some os /\ length os = length h /\
    Forall (fun o => batch_ok B (mg_hid c) (mo_fg_in o) /\ batch_ok B (mg_hid c) (mo_fg o) /\
      batch_ok B (mg_hid c) (mo_fg_hx o) /\ batch_ok B (mg_hid c) (mo_ng o) /\ batch_ok B (mg_hid c) (mo_fg_ng o) /\
      batch_ok B (mg_hid c) (mo_hy o)) os /\
    outputs (run_r (flin_step (fst (mg_f c)) (snd (mg_f c))) (flin_init (fst (mg_f c)))
               (no_args (map (fun p => map2 (@app Z) (snd p) (fst p)) h))) = Some (map mo_fg_in os) /\
    outputs (run_r (flin_step (fst (mg_n c)) (snd (mg_n c))) (flin_init (fst (mg_n c)))
               (no_args (map2 (map2 (@app Z)) (map mo_fg_hx os) (map fst h)))) = Some (map mo_ng os) /\
    forall b j, (b < B)%nat -> (j < mg_hid c)%nat ->
      let fg_in := lane (map mo_fg_in os) b j in
      let fg := lane (map mo_fg os) b j in
      let fg_hx := lane (map mo_fg_hx os) b j in
      let ng := lane (map mo_ng os) b j in
      let fg_ng := lane (map mo_fg_ng os) b j in
      let sig := {| fa_mode := Bipolar; fa_scale := None; fa_depth := mg_depth c; fa_entry := None |} in
      let add := {| fa_mode := Bipolar; fa_scale := Some 1%Q; fa_depth := mg_depth c; fa_entry := Some 3 |} in
      fg = outs (fsuadd_step sig) (fsuadd_init sig) (map (fun x => [x; 1]) fg_in) /\
      fg_hx = outs (fsumul_static_step Bipolar (hx_at c b j) (mg_hrng c)) fsumul_static_init fg /\
      fg_ng = outs (fsumul_is_step Bipolar (mg_wmul c) (mg_nrng c)) (fsumul_is_init (mg_wmul c)) (map2 pair fg ng) /\
      lane (map mo_hy os) b j = outs (fsuadd_step add) (fsuadd_init add)
        (map (fun t => [nth t ng 0; 1 - nth t fg_ng 0; nth t fg_hx 0]) (seq 0 (length h))).
Proof. exact @mgu_cell. Qed.
Print Assumptions C64_cell.
(** The counts: the forget gate is the floor of the average of the linear output with 1, fg_hx counts the sequence below
    the buffered state, and the result is the longest climb of ng - fg_ng + fg_hx. *)
Theorem C64_counts : forall c B h, mgu_shape c -> (1 <= B)%nat -> hx_shape c B -> Forall (call_ok B c) h ->
  4 <= mg_depth c -> (0 < length (mg_hrng c))%nat ->
  exists os, outputs (run_r (mgu_step c) (mgu_init c) h) = Some os /\
    forall b j, (b < B)%nat -> (j < mg_hid c)%nat ->
      let fg_in := lane (map mo_fg_in os) b j in
      let fg := lane (map mo_fg os) b j in
      let fg_hx := lane (map mo_fg_hx os) b j in
      let ng := lane (map mo_ng os) b j in
      let fg_ng := lane (map mo_fg_ng os) b j in
      let hy := lane (map mo_hy os) b j in
      ones fg = (ones fg_in + zlen h) / 2 /\
      ones fg_hx = below (mg_hrng c) (hx_at c b j) (Z.to_nat (ones fg)) +
                   (zeros fg - below (mg_hrng c) (hx_at c b j) (Z.to_nat (zeros fg))) /\
      let level p := inject_Z (ones (firstn p ng) - ones (firstn p fg_ng) + ones (firstn p fg_hx)) in
      (unclamped (qpow2 (mg_depth c - 2)) 1 level (fun t => ones (firstn t hy)) (length h) ->
       forall k, Z.of_nat k <= ones hy <-> climbs 1 level (length h) k).
Proof. exact @mgu_counts. Qed.
Print Assumptions C64_counts.
Definition ex_exts (_ : nat) : rng_ext :=
  {| ext_dirvec := fun _ j => p2 (29 - j); ext_lfsr_next := fun s => s; ext_lfsr_init := []; ext_randperm := [] |}.
Definition ex_mgu : result mgu_cfg := mgu_new ex_exts 1 1 true (Some [[1 # 2; -1 # 2]%Q]) (Some [1 # 2]%Q) (Some [[1; 1 # 2]%Q]) (Some [0]%Q)
  (Some [[1 # 2]; [-1]]%Q) 2 "Bipolar" 10 2 "Sobol" 1.
Definition ex_calls : list (list (list Z) * list (list Z)) :=
  [([[1]; [0]], [[1]; [0]]); ([[1]; [1]], [[1]; [0]]); ([[0]; [1]], [[0]; [0]]); ([[1]; [0]], [[1]; [0]])].
Example C64_ex : exists c, ex_mgu = Ok c /\ mgu_shape c /\ hx_shape c 2 /\ Forall (call_ok 2 c) ex_calls /\ 4 <= mg_depth c /\
  (0 < length (mg_hrng c))%nat /\ exists os, outputs (run_r (mgu_step c) (mgu_init c) ex_calls) = Some os /\
  lane (map mo_fg_in os) 0 0 = [1; 1; 0; 0] /\ lane (map mo_fg os) 0 0 = [1; 1; 0; 1] /\ lane (map mo_fg_hx os) 0 0 = [1; 1; 0; 0] /\
  lane (map mo_ng os) 0 0 = [1; 1; 0; 0] /\ lane (map mo_fg_ng os) 0 0 = [1; 1; 0; 0] /\ lane (map mo_hy os) 0 0 = [1; 1; 0; 0] /\
  lane (map mo_hy os) 1 0 = [1; 0; 0; 0].
Proof.
  eexists. split; [vm_compute; reflexivity|]. cbn [mg_depth mg_hrng].
  split; [split; [split; [reflexivity|]; split; [repeat constructor|reflexivity]|]; split; [cbn; lia|]; split; [reflexivity|];
          split; [split; [reflexivity|]; split; [repeat constructor|reflexivity]|]; split; [cbn; lia|reflexivity]|].
  split; [left; split; [reflexivity|repeat constructor]|].
  split; [|split; [lia|]; split; [cbn; lia|]; eexists; split; [vm_compute; reflexivity|]; repeat split; vm_compute; reflexivity].
  unfold ex_calls.
  repeat (apply Forall_cons; [split; (split; [reflexivity|]);
    repeat (apply Forall_cons; [split; [reflexivity|]; apply Forall_cons; [(left; reflexivity) || (right; reflexivity)|apply Forall_nil]|]); apply Forall_nil|]).
  apply Forall_nil.
Qed.

(** C65. Construction succeeds on well-shaped arguments with a rate coded sequence, and only on well-shaped bipolar
    arguments; a temporal coded sequence is rejected (by the linear layers, whose scale is 1), except for a single entry. *)
Theorem C65_new : forall ext I H bias wf bf wn bn hx width mn depth dmul rn dimr k,
  lower mn = "bipolar"%string -> rng_parse rn = Ok k -> is_tc k = false -> mgu_args_ok I H bias wf wn bf bn ->
  exists c, mgu_new ext I H bias (Some wf) bf (Some wn) bn (Some hx) width mn depth dmul rn dimr = Ok c /\
    mgu_shape c /\ mg_in c = I /\ mg_hid c = H /\ mg_depth c = depth /\ mg_wmul c = dmul /\
    mg_hx c = map (map (bingen Bipolar width)) hx /\
    mg_hrng c = rng_seq (ext 2%nat) k width dimr /\ mg_nrng c = rng_seq (ext 3%nat) k dmul dimr /\
    flin_new (ext 0%nat) (H + I) H bias (Some wf) bf [] width mn rn dimr (Some 1%Q) depth = Ok (mg_f c) /\
    flin_new (ext 1%nat) (H + I) H bias (Some wn) bn [] width mn rn dimr (Some 1%Q) depth = Ok (mg_n c).
Proof. exact @mgu_new_ok. Qed.
Print Assumptions C65_new.
Theorem C65_new_accepts : forall ext I H bias wf bf wn bn hx width mn depth dmul rn dimr c,
  mgu_new ext I H bias wf bf wn bn hx width mn depth dmul rn dimr = Ok c ->
  lower mn = "bipolar"%string /\
  (exists f n x, wf = Some f /\ wn = Some n /\ hx = Some x /\ mgu_args_ok I H bias f n bf bn) /\
  exists k, rng_parse rn = Ok k /\ (is_tc k = true -> Z.of_nat (H + I) + b2z bias = 1).
Proof. exact @mgu_new_accepts. Qed.
Print Assumptions C65_new_accepts.
(** Calls: wrong sizes, another batch size than before, and a buffered state of another batch size raise. *)
Theorem C65_bad_call : forall c s input hx,
  (exists r, In r input /\ length r <> mg_in c) \/ length input <> length hx \/ (exists r, In r hx /\ length r <> mg_hid c) ->
  mgu_step c s (input, hx) = Err RuntimeError.
Proof. exact @mgu_bad_call. Qed.
Print Assumptions C65_bad_call.
Theorem C65_rebatch : forall c B B' h p, mgu_shape c -> (1 <= B)%nat -> hx_shape c B -> h <> [] -> Forall (call_ok B c) h ->
  call_ok B' c p -> B' <> B -> run_r (mgu_step c) (mgu_init c) (h ++ [p]) = Err RuntimeError.
Proof. exact @mgu_rebatch. Qed.
Print Assumptions C65_rebatch.
Theorem C65_buffer : forall c B p, mgu_shape c -> (1 <= B)%nat -> call_ok B c p ->
  length (mg_hx c) <> B -> length (mg_hx c) <> 1%nat -> mgu_step c (mgu_init c) p = Err RuntimeError.
Proof. exact @mgu_buffer_mismatch. Qed.
Print Assumptions C65_buffer.
Example C65_ex :
  mgu_new ex_exts 1 1 true (Some [[1 # 2; -1 # 2]%Q]) (Some [1 # 2]%Q) (Some [[1; 1 # 2]%Q]) (Some [0]%Q)
    (Some [[1 # 2]]%Q) 2 "Bipolar" 10 2 "Race" 1 = Err AssertionError /\
  mgu_new ex_exts 1 1 true (Some [[1 # 2; -1 # 2]%Q]) (Some [1 # 2]%Q) (Some [[1; 1 # 2]%Q]) (Some [0]%Q)
    None 2 "bipolar" 10 2 "Sobol" 1 = Err AssertionError /\
  mgu_new ex_exts 1 1 true (Some [[1 # 2; -1 # 2]%Q]) (Some [1 # 2]%Q) (Some [[1]%Q]) (Some [0]%Q)
    (Some [[1 # 2]]%Q) 2 "bipolar" 10 2 "Sobol" 1 = Err AssertionError /\
  mgu_new ex_exts 1 1 true (Some [[1 # 2; -1 # 2]%Q]) (Some [1 # 2]%Q) (Some [[1; 1 # 2]%Q]) (Some [0]%Q)
    (Some [[1 # 2]]%Q) 2 "unipolar" 10 2 "Sobol" 1 = Err AssertionError /\
  mgu_new ex_exts 1 1 true (Some [[1 # 2; -1 # 2]%Q]) None (Some [[1; 1 # 2]%Q]) (Some [0]%Q)
    (Some [[1 # 2]]%Q) 2 "bipolar" 10 2 "Sobol" 1 = Err AttributeError /\
  exists c, ex_mgu = Ok c /\ run_r (mgu_step c) (mgu_init c) (ex_calls ++ [([[1]], [[1]])]) = Err RuntimeError /\
    mgu_step c (mgu_init c) ([[1]; [0]; [0]], [[1]; [0]; [1]]) = Err RuntimeError.
Proof.
  repeat (split; [vm_compute; reflexivity|]). eexists. split; [vm_compute; reflexivity|]. split; vm_compute; reflexivity.
Qed.

(** C66. HUBMGUCell: the value of the result stream of FSUMGUCell over one period of 2^width cycles, fed with the bit
    streams of input and state; it lies on the grid of 2^-(width-1) in [-1, 1]. *)
Theorem C66_hub : forall ext I H bias wf bf wn bn width mn depth dmul rn dimr k input hx,
  lower mn = "bipolar"%string -> rng_parse rn = Ok k -> is_tc k = false -> mgu_args_ok I H bias wf wn bf bn ->
  (1 <= length input)%nat -> qshape (length input) I input ->
  match hx with None => True | Some h => qshape (length input) H h end ->
  let B := length input in
  let h0 b j := match hx with None => 0%Q | Some h => qentry h b j end in
  exists c h os y,
    (exists hb, qshape B H hb /\ (forall b j, (b < B)%nat -> (j < H)%nat -> qentry hb b j = h0 b j) /\
       mgu_new ext I H bias (Some wf) bf (Some wn) bn (Some hb) width mn depth dmul rn dimr = Ok c) /\
    length h = (2 ^ width)%nat /\ Forall (call_ok B c) h /\
    (forall b i, (b < B)%nat -> (i < I)%nat ->
       lane (map fst h) b i = bsgen_stream (bingen Bipolar width (qentry input b i)) (rng_seq (ext 4%nat) k width dimr) 0 (2 ^ width)) /\
    (forall b j, (b < B)%nat -> (j < H)%nat ->
       lane (map snd h) b j = bsgen_stream (bingen Bipolar width (h0 b j)) (rng_seq (ext 5%nat) k width dimr) 0 (2 ^ width)) /\
    outputs (run_r (mgu_step c) (mgu_init c) h) = Some os /\
    hubmgu ext I H bias (Some wf) bf (Some wn) bn width mn depth dmul rn dimr input hx = Ok y /\ qshape B H y /\
    forall b j, (b < B)%nat -> (j < H)%nat ->
      (qentry y b j == value Bipolar (lane (map mo_hy os) b j))%Q /\
      (qentry y b j == inject_Z (2 * ones (lane (map mo_hy os) b j) - p2 width) / inject_Z (p2 width))%Q /\
      (-1 <= qentry y b j /\ qentry y b j <= 1)%Q.
Proof. exact @hubmgu_value. Qed.
Print Assumptions C66_hub.
Example C66_ex :
  match hubmgu ex_exts 1 1 true (Some [[1 # 2; -1 # 2]%Q]) (Some [1 # 2]%Q) (Some [[1; 1 # 2]%Q]) (Some [0]%Q) 3 "bipolar" 10 3 "Sobol" 1
    [[1 # 2]; [-1 # 2]]%Q (Some [[1 # 4]; [3 # 4]]%Q) with
  | Ok [[a]; [b]] => (a == 0 /\ b == 3 # 4)%Q
  | _ => False
  end.
Proof. vm_compute. split; reflexivity. Qed.
(** HUBMGUCell is documented as the counterpart of HardMGUCell: it is not within one step of its grid, 2/2^width. *)
Theorem C66_hard_within_step_refuted : exists ext width wf bf wn bn x h y,
  dirvec_ok 30 (ext_dirvec (ext 0%nat) 1) /\ (forall k, ext k = ext 0%nat) /\
  hubmgu ext 1 1 true (Some wf) (Some bf) (Some wn) (Some bn) width "bipolar" 10 6 "Sobol" 1 [[x]] (Some [[h]]) = Ok [[y]] /\
  (-1 <= x <= 1 /\ -1 <= h <= 1 /\
   2 / inject_Z (p2 width) <
   Qabs (y - qentry (mv_hy (hardmgu_forward 1 {| mg_wf := wf; mg_bf := Some bf; mg_wn := wn; mg_bn := Some bn |} [[x]] (Some [[h]]))) 0 0))%Q.
Proof.
  exists ex_exts, 3%nat, [[1 # 2; -1 # 2]%Q], [1 # 2]%Q, [[1; 1 # 2]%Q], [0]%Q, (1 # 2)%Q, (1 # 4)%Q. eexists.
  split; [|split; [reflexivity|split; [vm_compute; reflexivity|vm_compute; repeat split; discriminate]]].
  intros j Hj. exists 1. split; [symmetry; apply Z.mul_1_l|]. split; [reflexivity|]. rewrite p2_S. pose proof (p2_pos j). lia.
Qed.
Print Assumptions C66_hard_within_step_refuted.
