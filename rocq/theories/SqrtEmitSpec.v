(** Statements about the square root by emission, used by C97, and about division, used by C98. *)
Require Import Verif.BaseLemmas.
Open Scope Z_scope.

(** Number of cycles below k in which the stream and the same stream n cycles earlier are both 1. *)
Definition lag_product (n : nat) (os : list Z) (k : nat) : Z :=
  zsum (map (fun t => nth t os 0 * nth (t - n) os 0) (seq n (k - n))).

(** The stream repeats after n cycles. *)
Definition repeats (n : nat) (xs : list Z) : Prop :=
  forall t, (t + n < length xs)%nat -> nth (t + n) xs 0 = nth t xs 0.

(** 1 0 1 0 ..., T cycles. *)
Definition every_other (T : nat) : list Z := map (fun t => 1 - Z.of_nat t mod 2) (seq 0 T).

(** (dividend, divisor) in four cycles: the divisor is 1 1 0 0, the dividend its first one. *)
Definition unlucky : list (Z * Z) := [(1, 1); (0, 1); (0, 0); (0, 0)].
(** p copies of a list. *)
Fixpoint again {A} (p : nat) (l : list A) : list A := match p with O => [] | S p => again p l ++ l end.
