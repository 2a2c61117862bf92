(** Vocabulary for streams that pause. *)
Require Export Verif.FaultSpec.
Open Scope Z_scope.

(** xs with idle entries z put in: gaps lists how many come before the first entry, the second, ... *)
Fixpoint stall {A : Type} (z : A) (gaps : list nat) (xs : list A) : list A :=
  match gaps with
  | [] => xs
  | g :: gs => repeat z g ++ match xs with [] => [] | x :: r => x :: stall z gs r end
  end.
(** Every row of the batches pauses, each at its own times. *)
Definition stalled (B n : nat) (gaps : nat -> list nat) (h h' : list (list (list Z))) : Prop :=
  forall b i, (b < B)%nat -> (i < n)%nat -> lane h' b i = stall 0 (gaps b) (lane h b i).
(** A unipolar layer without bias, rate-coded, at its default scale and deep enough. *)
Definition patient (l : pc_cfg * Z) : Prop := sound l /\ pc_mode (fst l) = Unipolar /\ pc_bias (fst l) = None.
