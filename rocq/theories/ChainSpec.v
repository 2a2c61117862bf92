(** Specification of an accumulator that pays out one unit of size s per cycle: what it has paid out after n cycles is the
    length of the longest climb through the levels it has received. *)
Require Export Verif.Spec.
Open Scope Q_scope.

(** k increasing times up to n at which the level has reached s, 2s, ..., ks. *)
Definition climbs (s : Q) (level : nat -> Q) (n k : nat) : Prop :=
  exists pos : nat -> nat,
    (forall i, (i < k)%nat -> (1 <= pos i <= n)%nat) /\
    (forall i j, (i < j)%nat -> (j < k)%nat -> (pos i < pos j)%nat) /\
    (forall i, (i < k)%nat -> s * inject_Z (Z.of_nat i + 1) <= level (pos i)).

(** The content before a payment stays within +-lim. *)
Definition unclamped (lim s : Q) (level : nat -> Q) (paid : nat -> Z) (n : nat) : Prop :=
  forall t, (t < n)%nat -> - lim <= level (S t) - s * inject_Z (paid t) /\ level (S t) - s * inject_Z (paid t) <= lim.
