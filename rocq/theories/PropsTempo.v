(** Property C105: layers with temporally coded weights: wrong bits, wrong weights, negated inputs. *)
Require Import Verif.BaseLemmas Verif.TempoSpec Verif.GenModel Verif.KernelModel Verif.LinearModel Verif.NetSpec Verif.ChainSpec Verif.TempoProof.
Open Scope Z_scope.

(** In every prefix an output is off by at most the input bits flipped so far divided by the number of entries, rounded up. *)
Theorem C105_flips : forall l B h1 h2, timed l -> (1 <= B)%nat ->
  Forall (batch_ok B (pc_in (fst l))) h1 -> Forall (batch_ok B (pc_in (fst l))) h2 -> length h1 = length h2 ->
  exists os1 os2,
    outputs (run_r (flin_step (fst l) (flin_acc_cfg (fst l) None (snd l))) (flin_init (fst l)) (no_args h1)) = Some os1 /\
    outputs (run_r (flin_step (fst l) (flin_acc_cfg (fst l) None (snd l))) (flin_init (fst l)) (no_args h2)) = Some os2 /\
    length os1 = length h1 /\ length os2 = length h2 /\
    Forall (batch_ok B (pc_out (fst l))) os1 /\ Forall (batch_ok B (pc_out (fst l))) os2 /\
    forall b o t, (b < B)%nat -> (o < pc_out (fst l))%nat -> (t <= length h1)%nat ->
      Z.abs (ones (firstn t (lane os1 b o)) - ones (firstn t (lane os2 b o))) <=
      (zsum (map (fun i => flips (firstn t (lane h1 b i)) (firstn t (lane h2 b i))) (seq 0 (pc_in (fst l)))) + flin_entry (fst l) - 1) / flin_entry (fst l).
Proof. exact timed_flips. Qed.
Print Assumptions C105_flips.

(** Other weights and biases: by what they are off together, once for every period begun, divided by the number of entries and rounded up. *)
Theorem C105_weights : forall l1 l2 w B h, timed l1 -> timed l2 -> alike (fst l1) (fst l2) -> perm_seq w (pc_rng (fst l1)) ->
  (1 <= B)%nat -> Forall (batch_ok B (pc_in (fst l1))) h ->
  exists os1 os2,
    outputs (run_r (flin_step (fst l1) (flin_acc_cfg (fst l1) None (snd l1))) (flin_init (fst l1)) (no_args h)) = Some os1 /\
    outputs (run_r (flin_step (fst l2) (flin_acc_cfg (fst l2) None (snd l2))) (flin_init (fst l2)) (no_args h)) = Some os2 /\
    length os1 = length h /\ length os2 = length h /\
    Forall (batch_ok B (pc_out (fst l1))) os1 /\ Forall (batch_ok B (pc_out (fst l1))) os2 /\
    forall b o t, (b < B)%nat -> (o < pc_out (fst l1))%nat -> (t <= length h)%nat ->
      Z.abs (ones (firstn t (lane os1 b o)) - ones (firstn t (lane os2 b o))) <=
      ((zsum (map (fun i => Z.abs (entry2 (pc_weight (fst l1)) o i - entry2 (pc_weight (fst l2)) o i)) (seq 0 (pc_in (fst l1)))) +
        bias_off (fst l1) (fst l2) o) * periods w (Z.of_nat t) + flin_entry (fst l1) - 1) / flin_entry (fst l1).
Proof. exact timed_off. Qed.
Print Assumptions C105_weights.

(** Bipolar without bias: odd up to one bit. *)
Theorem C105_negated : forall l B h, timed l -> pc_mode (fst l) = Bipolar -> pc_bias (fst l) = None -> (1 <= B)%nat ->
  Forall (batch_ok B (pc_in (fst l))) h ->
  exists os1 os2,
    outputs (run_r (flin_step (fst l) (flin_acc_cfg (fst l) None (snd l))) (flin_init (fst l)) (no_args h)) = Some os1 /\
    outputs (run_r (flin_step (fst l) (flin_acc_cfg (fst l) None (snd l))) (flin_init (fst l)) (no_args (negated_batches h))) = Some os2 /\
    length os1 = length h /\ length os2 = length h /\
    forall b o t, (b < B)%nat -> (o < pc_out (fst l))%nat -> (t <= length h)%nat ->
      0 <= Z.of_nat t - ones (firstn t (lane os1 b o)) - ones (firstn t (lane os2 b o)) <= 1.
Proof. exact timed_negated. Qed.
Print Assumptions C105_negated.

(** Unlike with rate coding (C100) it is not enough that the counts stay close: ones that come one cycle early all the time make any difference. *)
Theorem C105_jitter : forall n, exists h1 h2 os1 os2,
  Forall (batch_ok 1 1) h1 /\ Forall (batch_ok 1 1) h2 /\ length h1 = (2 * n)%nat /\ length h2 = (2 * n)%nat /\ lanes_within 1 1 (fun _ _ => 1) h1 h2 /\
  outputs (run_r (flin_step (fst tick) (flin_acc_cfg (fst tick) None (snd tick))) (flin_init (fst tick)) (no_args h1)) = Some os1 /\
  outputs (run_r (flin_step (fst tick) (flin_acc_cfg (fst tick) None (snd tick))) (flin_init (fst tick)) (no_args h2)) = Some os2 /\
  ones (lane os1 0 0) = 0 /\ ones (lane os2 0 0) = Z.of_nat n.
Proof. exact timed_jitter. Qed.
Print Assumptions C105_jitter.

(** Hence two such layers can amplify a single wrong input bit without bound. *)
Theorem C105_two_layers : forall n, exists h1 h2 os1 os2,
  Forall (batch_ok 1 2) h1 /\ Forall (batch_ok 1 2) h2 /\ length h1 = (2 * S n)%nat /\ length h2 = (2 * S n)%nat /\
  lane h1 0 0 = lane h2 0 0 /\ flips (lane h1 0 1) (lane h2 0 1) = 1 /\
  outputs (run_r (net_step (map plain [halve; tick])) (net_init (map plain [halve; tick])) h1) = Some os1 /\
  outputs (run_r (net_step (map plain [halve; tick])) (net_init (map plain [halve; tick])) h2) = Some os2 /\
  ones (lane os1 0 0) = 0 /\ ones (lane os2 0 0) = Z.of_nat (S n).
Proof. exact timed_two. Qed.
Print Assumptions C105_two_layers.

Definition ex_tl (m : mode) (W : list (list Z)) : pc_cfg :=
  {| pc_mode := m; pc_wtc := true; pc_rng := [0; 1; 2; 3]; pc_in := 2; pc_out := 1; pc_weight := W; pc_bias := None |}.
Definition ex_trun (c : pc_cfg) (h : list (list (list Z))) := outputs (run_r (flin_step c (flin_acc_cfg c None 8)) (flin_init c) (no_args h)).
Definition ex_th : list (list (list Z)) := [[[1; 1]]; [[0; 1]]; [[1; 0]]; [[1; 1]]; [[1; 1]]; [[1; 1]]].
(** Flipping the second input in the first and fifth cycle; a weight off by 2; the negated input; a wrong first bit through two layers. *)
Example C105_ex :
  timed (ex_tl Unipolar [[2; 3]], 8) /\
  ex_trun (ex_tl Unipolar [[2; 3]]) ex_th = Some [[[1]]; [[0]]; [[0]]; [[0]]; [[1]]; [[1]]] /\
  ex_trun (ex_tl Unipolar [[2; 3]]) [[[1; 0]]; [[0; 1]]; [[1; 0]]; [[1; 1]]; [[1; 0]]; [[1; 1]]] = Some [[[0]]; [[1]]; [[0]]; [[0]]; [[0]]; [[1]]] /\
  ex_trun (ex_tl Unipolar [[4; 3]]) ex_th = Some [[[1]]; [[0]]; [[1]]; [[0]]; [[1]]; [[1]]] /\
  ex_trun (ex_tl Bipolar [[2; 3]]) ex_th = Some [[[1]]; [[0]]; [[0]]; [[0]]; [[1]]; [[1]]] /\
  ex_trun (ex_tl Bipolar [[2; 3]]) (negated_batches ex_th) = Some [[[0]]; [[0]]; [[1]]; [[1]]; [[0]]; [[0]]] /\
  outputs (run_r (net_step (map plain [halve; tick])) (net_init (map plain [halve; tick])) [[[1; 0]]; [[1; 0]]; [[1; 0]]; [[1; 0]]; [[1; 0]]; [[1; 0]]]) =
    Some [[[0]]; [[0]]; [[0]]; [[0]]; [[0]]; [[0]]] /\
  outputs (run_r (net_step (map plain [halve; tick])) (net_init (map plain [halve; tick])) [[[1; 1]]; [[1; 0]]; [[1; 0]]; [[1; 0]]; [[1; 0]]; [[1; 0]]]) =
    Some [[[1]]; [[0]]; [[1]]; [[0]]; [[1]]; [[0]]].
Proof.
  split; [unfold timed, pc_shape; cbn; repeat split; try lia; try (repeat constructor); vm_compute; discriminate|].
  repeat split; vm_compute; reflexivity.
Qed.
