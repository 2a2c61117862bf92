(** Vocabulary for parameters that are off. *)
Require Export Verif.SymSpec.
Open Scope Z_scope.

(** How many periods of 2^w numbers n steps have begun. *)
Definition periods (w : nat) (n : Z) : Z := (n + p2 w - 1) / p2 w.
(** How often the multiplier can have drawn one and the same number along xs: its ones draw from one copy of the sequence, in bipolar mode
    its zeros from another. *)
Definition exposure (m : mode) (w : nat) (xs : list Z) : Z :=
  periods w (ones xs) + match m with Unipolar => 0 | Bipolar => periods w (zeros xs) end.
(** ... along any T bits. *)
Definition reach (m : mode) (w : nat) (T : Z) : Z := periods w T + match m with Unipolar => 0 | Bipolar => 1 end.

(** The same layer with other weights and biases. *)
Definition alike (c1 c2 : pc_cfg) : Prop :=
  pc_mode c1 = pc_mode c2 /\ pc_rng c1 = pc_rng c2 /\ pc_in c1 = pc_in c2 /\ pc_out c1 = pc_out c2 /\
  match pc_bias c1, pc_bias c2 with None, None => True | Some _, Some _ => True | _, _ => False end.
Definition bias_off (c1 c2 : pc_cfg) (o : nat) : Z :=
  match pc_bias c1, pc_bias c2 with Some b1, Some b2 => Z.abs (nth o b1 0 - nth o b2 0) | _, _ => 0 end.
(** Every weight and bias off by at most k. *)
Definition off_by (k : Z) (c1 c2 : pc_cfg) : Prop :=
  alike c1 c2 /\
  (forall o i, (o < pc_out c1)%nat -> (i < pc_in c1)%nat -> Z.abs (entry2 (pc_weight c1) o i - entry2 (pc_weight c2) o i) <= k) /\
  forall o, (o < pc_out c1)%nat -> bias_off c1 c2 o <= k.
Definition layers_off (m : mode) (w : nat) (k : Z) (l1 l2 : pc_cfg * Z) : Prop :=
  sound l1 /\ sound l2 /\ pc_mode (fst l1) = m /\ perm_seq w (pc_rng (fst l1)) /\ off_by k (fst l1) (fst l2).
