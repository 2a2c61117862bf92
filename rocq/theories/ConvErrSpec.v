(** What a two-dimensional convolution computes at one output entry, and the number of its taps. *)
Require Export Verif.Base Verif.Spec Verif.BinConvSpec.
Open Scope Z_scope.

Definition conv_entry (kernel s d p : nat * nat) (C H W : nat) (input weight : list (list (list (list Q)))) (n o y x : nat) : Q :=
  sumq_taps C (fst kernel) (snd kernel) (fun k i j => under s d p H W input n y x k i j * entry4 0%Q weight o k i j)%Q.
Definition taps (C : nat) (kernel : nat * nat) : nat := (C * (fst kernel * snd kernel))%nat.
(** Every number of a tensor. *)
Definition all_entries (t : list (list (list (list Q)))) : list Q := concat (concat (concat t)).
