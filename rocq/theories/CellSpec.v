(** Specification for C85: how far the recurrent cells of a sequence drift apart. Independent of the models. *)
Require Import Verif.Base Verif.Spec.
Open Scope Q_scope.

(** Two rows of n values differ by at most d everywhere. *)
Definition apart (n : nat) (d : Q) (h h' : nat -> Q) : Prop := forall i, (i < n)%nat -> Qabs (h i - h' i) <= d.
(** The first n columns of every one of the first H rows of w have absolute sum at most R. *)
Definition rows_within (H n : nat) (w : nat -> nat -> Q) (R : Q) : Prop := forall o, (o < H)%nat -> qsum (map (fun i => Qabs (w o i)) (seq 0 n)) <= R.
(** What one step of the gated unit does at most to a difference of the states, when the columns of the state have absolute sums of
    at most af in the forget gate and an in the new gate: the gate moves by af/2 and is worth up to 2; the rest is a mean of the old
    state and of the new gate. *)
Definition cell_gain (af an : Q) : Q := qmax 1 (an * (1 + af / 2)) + af.
(** 1 + L + ... + L^(t-1): what t errors of one become when every step multiplies by at most L. *)
Fixpoint growth (L : Q) (t : nat) : Q := match t with O => 0 | S t' => 1 + L * growth L t' end.

(** Half a step of the format, and the error of the quantised cell in one call: N operands per row, absolute row sums Rf and Rn. *)
Definition half_step (f : Z) : Q := (1 # 2) / Qpower 2 f.
Definition fxp_gate (u N Rf : Q) : Q := (u * Rf + N * (1 + u) * u + u + u) / 2 + u.
Definition fxp_new (u N Rf Rn : Q) : Q := let e := fxp_gate u N Rf + u + u in e * Rn + N * (1 + e) * u + u + u.
Definition fxp_cell (u N Rf Rn : Q) : Q := fxp_new u N Rf Rn + 2 * fxp_gate u N Rf + 2 * u.
(** Representable without saturation. *)
Definition in_format (i f : Z) (v : Q) : Prop := Qabs v <= Qpower 2 i - 1 / Qpower 2 f.
