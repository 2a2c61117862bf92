(** Vocabulary for SobolRNGtwo. *)
Require Export Verif.RtlSobolTwoModel.
Open Scope Z_scope.

(** Eight numbers, the i-th of at most i+1 bits. *)
Definition vecs (a : list Z) : Prop := length a = 8%nat /\ forall i, (i < 8)%nat -> 0 <= nth i a 0 < p2 (S i).
(** ... all odd. *)
Definition odd_vecs (a : list Z) : Prop := vecs a /\ forall i, (i < 8)%nat -> Z.odd (nth i a 0) = true.
(** Two such lists in eight nine-bit words as the comment in SobolRNGtwo.sv draws it: a[i] above, b[7-i] below. *)
Definition merged (a b : list Z) : list Z := map (fun i => nth i a 0 * p2 (8 - i) + nth (7 - i) b 0) (seq 0 8).
(** The i-th eight-bit direction vector: a[i] at the upper end. *)
Definition vec_of (a : list Z) (i : nat) : Z := nth i a 0 * p2 (7 - i).
(** All of a list, one after the other, in exclusive or. *)
Definition xor_all (l : list Z) : Z := fold_right Z.lxor 0 l.
(** How the indices are derived from a word on every clock, and n clocks with a constant merged array. *)
Definition clocks (a b : list Z) (idx : nat -> nat * nat) (n : nat) : list (list Z * (nat * nat)) := map (fun t => (merged a b, idx t)) (seq 0 n).
Definition count_idx (t : nat) : nat * nat := lsz8 (Z.of_nat (t mod 256)).
Definition both_low (t : nat) : nat * nat := (fst (count_idx t), fst (count_idx t)).
(** The word is a Gray code instead. *)
Definition gray_idx (t : nat) : nat * nat := lsz8 (Z.lxor (Z.of_nat (t mod 256) / 2) (Z.of_nat (t mod 256))).
(** What the two registers hold on clock t. *)
Definition shows (h : list (list Z * (nat * nat))) (t : nat) : Z * Z := nth t (outs sobol_two sobol_two_init h) (0, 0).
