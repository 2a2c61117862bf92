(** Vocabulary for wrong bits. *)
Require Export Verif.MonoSpec.
Open Scope Z_scope.

(** At no moment have the two streams carried numbers of ones that differ by more than k. *)
Definition within (k : Z) (xs ys : list Z) : Prop := forall t, Z.abs (ones (firstn t xs) - ones (firstn t ys)) <= k.
(** The positions in which they differ. *)
Definition flips (xs ys : list Z) : Z := countb (fun p => negb (fst p =? snd p)) (combine xs ys).
(** Every lane is within k. *)
Definition lanes_within (B n : nat) (k : nat -> nat -> Z) (h1 h2 : list (list (list Z))) : Prop :=
  forall b i, (b < B)%nat -> (i < n)%nat -> within (k b i) (lane h1 b i) (lane h2 b i).
(** A layer at its default scale that is deep enough not to saturate, in either mode, with rate-coded weights. *)
Definition sound (l : pc_cfg * Z) : Prop :=
  pc_shape (fst l) /\ (0 < length (pc_rng (fst l)))%nat /\ pc_wtc (fst l) = false /\ 0 < flin_entry (fst l) /\
  (inject_Z (2 * flin_entry (fst l) - 1) <= qpow2 (snd l - 2))%Q.
