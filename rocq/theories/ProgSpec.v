(** Vocabulary for what a stream is worth after any number of cycles. *)
Require Export Verif.Base Verif.Spec.
Open Scope Z_scope.

(** The width of the range of values of a mode: what one bit out of one is worth. *)
Definition span (m : mode) : Q := match m with Unipolar => 1 | Bipolar => 2 end.
(** How far, in bits, a product of two low-discrepancy streams of w bits may be from the exact product, whatever the length. *)
Definition product_slack (m : mode) (w : nat) : Q := inject_Z (match m with Unipolar => 2 | Bipolar => 3 end * Z.of_nat w).
(** After t cycles the value of xs is within q plus K bits of v, for every t. *)
Definition progresses (m : mode) (q K : Q) (v : Q) (xs : list Z) : Prop :=
  forall t, (1 <= t <= length xs)%nat -> (Qabs (value m (firstn t xs) - v) <= q + span m * K / inject_Z (Z.of_nat t))%Q.
(** Sizes of a convolution with a square border of p: ho by wo windows. *)
Definition conv_sizes (kernel s d : nat * nat) (p C H W ho wo : nat) : Prop :=
  (1 <= C)%nat /\ (1 <= H)%nat /\ (1 <= fst kernel)%nat /\ (1 <= snd kernel)%nat /\ (1 <= fst s)%nat /\ (1 <= snd s)%nat /\
  (1 <= ho)%nat /\ (1 <= wo)%nat /\
  positions (Z.of_nat (H + 2 * p)) (Z.of_nat (fst kernel)) (Z.of_nat (fst s)) (Z.of_nat (fst d)) = Z.of_nat ho /\
  positions (Z.of_nat (W + 2 * p)) (Z.of_nat (snd kernel)) (Z.of_nat (snd s)) (Z.of_nat (snd d)) = Z.of_nat wo.
(** Every given bias lies in the range. *)
Definition src_opt (m : mode) (be : option (list Q)) : Prop := match be with None => True | Some b => Forall (src_ok m) b end.
