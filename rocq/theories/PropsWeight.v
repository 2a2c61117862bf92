(** Property C103: how far wrong weights reach. *)
Require Import Verif.BaseLemmas Verif.WeightSpec Verif.GenModel Verif.KernelModel Verif.NetSpec Verif.ChainSpec Verif.WeightProof.
Open Scope Z_scope.

(** BSGen: two numbers that differ by d give streams whose counts differ by at most d for every period begun. *)
Theorem C103_gen : forall w rng B B' n, perm_seq w rng ->
  Z.abs (ones (bsgen_stream B rng 0 n) - ones (bsgen_stream B' rng 0 n)) <= Z.abs (B - B') * periods w (Z.of_nat n).
Proof. exact gen_off. Qed.
Print Assumptions C103_gen.

(** So does the multiplier, for every period its ones, and in bipolar mode its zeros, have begun ... *)
Theorem C103_mul : forall m w rng B B' xs t, perm_seq w rng -> bits xs ->
  Z.abs (ones (firstn t (outs (fsumul_static_step m B rng) fsumul_static_init xs)) - ones (firstn t (outs (fsumul_static_step m B' rng) fsumul_static_init xs))) <=
  Z.abs (B - B') * exposure m w (firstn t xs).
Proof. exact mul_off. Qed.
Print Assumptions C103_mul.

(** ... and no better bound holds: an input of ones attains it. *)
Theorem C103_mul_attained : forall w rng B B' q, perm_seq w rng -> 0 <= B <= p2 w -> 0 <= B' <= p2 w ->
  Z.abs (ones (outs (fsumul_static_step Unipolar B rng) fsumul_static_init (repeat 1 (q * 2 ^ w))) -
         ones (outs (fsumul_static_step Unipolar B' rng) fsumul_static_init (repeat 1 (q * 2 ^ w)))) = Z.abs (B - B') * Z.of_nat q /\
  exposure Unipolar w (repeat 1 (q * 2 ^ w)) = Z.of_nat q.
Proof. exact mul_off_attained. Qed.
Print Assumptions C103_mul_attained.

(** A layer at its default scale: what the weights of an output are off by, each as often as its input lets it be drawn, together divided by the
    number of entries and rounded up. *)
Theorem C103_layer : forall l1 l2 m w B h, sound l1 -> sound l2 -> alike (fst l1) (fst l2) -> pc_mode (fst l1) = m -> perm_seq w (pc_rng (fst l1)) ->
  (1 <= B)%nat -> Forall (batch_ok B (pc_in (fst l1))) h ->
  exists os1 os2,
    outputs (run_r (flin_step (fst l1) (flin_acc_cfg (fst l1) None (snd l1))) (flin_init (fst l1)) (no_args h)) = Some os1 /\
    outputs (run_r (flin_step (fst l2) (flin_acc_cfg (fst l2) None (snd l2))) (flin_init (fst l2)) (no_args h)) = Some os2 /\
    length os1 = length h /\ length os2 = length h /\
    Forall (batch_ok B (pc_out (fst l1))) os1 /\ Forall (batch_ok B (pc_out (fst l1))) os2 /\
    forall b o t, (b < B)%nat -> (o < pc_out (fst l1))%nat -> (t <= length h)%nat ->
      Z.abs (ones (firstn t (lane os1 b o)) - ones (firstn t (lane os2 b o))) <=
      (zsum (map (fun i => Z.abs (entry2 (pc_weight (fst l1)) o i - entry2 (pc_weight (fst l2)) o i) * exposure m w (firstn t (lane h b i))) (seq 0 (pc_in (fst l1)))) +
       bias_off (fst l1) (fst l2) o * periods w (Z.of_nat t) + flin_entry (fst l1) - 1) / flin_entry (fst l1).
Proof. exact linear_off. Qed.
Print Assumptions C103_layer.

(** A network in which every weight and bias is off by at most k, and every input stream by at most j bits: after T cycles the outputs are off
    by at most j and k ceil(T / 2^w) (bipolar: and k more) for every layer. *)
Theorem C103_net : forall m w k ls1 ls2, Forall2 (layers_off m w k) ls1 ls2 -> 0 <= k -> forall n B h1 h2 j, fitted n ls1 -> fitted n ls2 -> (1 <= B)%nat -> 0 <= j ->
  Forall (batch_ok B n) h1 -> Forall (batch_ok B n) h2 -> length h1 = length h2 -> lanes_within B n (fun _ _ => j) h1 h2 ->
  exists os1 os2,
    outputs (run_r (net_step (map plain ls1)) (net_init (map plain ls1)) h1) = Some os1 /\
    outputs (run_r (net_step (map plain ls2)) (net_init (map plain ls2)) h2) = Some os2 /\
    length os1 = length h1 /\ length os2 = length h2 /\
    lanes_within B (width_out n ls1) (fun _ _ => j + zlen ls1 * (k * reach m w (Z.of_nat (length h1)))) os1 os2.
Proof. exact net_off. Qed.
Print Assumptions C103_net.

Definition ex_wl (m : mode) (W : list (list Z)) (b : Z) : pc_cfg :=
  {| pc_mode := m; pc_wtc := false; pc_rng := [0; 2; 1; 3]; pc_in := 2; pc_out := 1; pc_weight := W; pc_bias := Some [b] |}.
Definition ex_wh : list (list (list Z)) := [[[1; 1]]; [[1; 0]]; [[0; 1]]; [[1; 1]]; [[1; 1]]; [[1; 0]]; [[1; 1]]; [[0; 1]]].
Definition ex_wrun (c : pc_cfg) := outputs (run_r (flin_step c (flin_acc_cfg c None 8)) (flin_init c) (no_args ex_wh)).
(** Two unipolar layers, one weight and the bias off by 2: after two periods 3 and 6 ones, exactly as far apart as the bound allows. *)
Example C103_ex :
  ex_wrun (ex_wl Unipolar [[1; 3]] 2) = Some [[[1]]; [[0]]; [[0]]; [[1]]; [[0]]; [[0]]; [[1]]; [[0]]] /\
  ex_wrun (ex_wl Unipolar [[3; 3]] 4) = Some [[[1]]; [[0]]; [[1]]; [[1]]; [[0]]; [[1]]; [[1]]; [[1]]] /\
  (2 * exposure Unipolar 2 (lane ex_wh 0 0) + 0 * exposure Unipolar 2 (lane ex_wh 0 1) + 2 * periods 2 8 + 3 - 1) / 3 = 3 /\
  layers_off Unipolar 2 2 (ex_wl Unipolar [[1; 3]] 2, 8) (ex_wl Unipolar [[3; 3]] 4, 8) /\
  ex_wrun (ex_wl Bipolar [[1; 3]] 2) = Some [[[1]]; [[0]]; [[0]]; [[1]]; [[0]]; [[0]]; [[1]]; [[1]]] /\
  ex_wrun (ex_wl Bipolar [[3; 4]] 2) = Some [[[1]]; [[0]]; [[1]]; [[0]]; [[1]]; [[0]]; [[1]]; [[1]]] /\
  exposure Bipolar 2 (lane ex_wh 0 0) = 3 /\ reach Bipolar 2 8 = 3.
Proof.
  split; [vm_compute; reflexivity|]. split; [vm_compute; reflexivity|]. split; [vm_compute; reflexivity|]. split; [|repeat split; vm_compute; reflexivity].
  assert (Sd : forall W b, length W = 1%nat -> Forall (fun r => length r = 2%nat) W -> sound (ex_wl Unipolar W b, 8)).
  { intros W b L F. unfold sound, pc_shape. cbn. repeat split; try lia; try assumption; try (vm_compute; discriminate). }
  split; [apply Sd; repeat constructor|]. split; [apply Sd; repeat constructor|]. split; [reflexivity|]. split.
  - apply perm_skip. apply perm_swap.
  - split; [repeat split; exact I|]. split.
    + intros o i Ho Hi. cbn in Ho, Hi. replace o with 0%nat by lia. do 2 (destruct i as [|i]; [vm_compute; discriminate|]). lia.
    + intros o Ho. cbn in Ho. replace o with 0%nat by lia. vm_compute. discriminate.
Qed.
