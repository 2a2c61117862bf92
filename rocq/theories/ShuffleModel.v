(** Model of /repo/stream/shuffle.py, one lane (elementwise code; lanes are lifted in TensorProof.v). *)
Require Export Verif.Base.
Open Scope Z_scope.

(** SkewedSync, shuffle.py:29-30: state is the counter, initially 0. *)
Definition skewedsync_init : Z := 0.

(** shuffle.py:32-42. The reset of [cnt] on a change of tensor shape (lines 35-36) is the
    initial broadcast; a later change of shape is in TensorModel.v. *)
Definition skewedsync_step (depth : nat) (cnt : Z) (inp : Z * Z) : Z * (Z * Z) :=
  let '(in_1, in_2) := inp in
  let upper := p2 depth - 1 in
  let sum_in := in_1 + in_2 in
  let cnt_not_min := b2z (negb (cnt =? 0)) in
  let cnt_not_max := b2z (negb (cnt =? upper)) in
  let out_1 := in_1 + b2z (sum_in =? 1) * (cnt_not_min * (1 - in_1) + (0 - cnt_not_max) * in_1) in
  let cnt' := zclamp 0 upper (cnt + b2z (sum_in =? 1) * (in_1 * 2 - 1)) in
  (cnt', (out_1, in_2)).

(** Bi2Uni, shuffle.py:70-74: accumulator 0, bounds +-2^(depth-2); depth >= 2 so that the bound is an
    integer (depth is given here as d2 = depth - 2). *)
Definition bi2uni_init : Z := 0.

(** shuffle.py:76-82. Line 81 subtracts in place; the clamp on that line is not in place and its
    result is dropped, so it is absent here. *)
Definition bi2uni_step (d2 : nat) (acc : Z) (input : Z) : Z * Z :=
  let acc_max := p2 d2 in
  let acc_min := - p2 d2 in
  let acc1 := zclamp acc_min acc_max (acc + (input * 2 - 1)) in
  let output := b2z (acc1 >=? 1) in
  (acc1 - output, output).

(** Uni2Bi, shuffle.py:110-114; d2 = depth - 2. *)
Definition uni2bi_init : Z := 0.

(** shuffle.py:116-123; the clamp on line 122 is dropped as in Bi2Uni. *)
Definition uni2bi_step (d2 : nat) (acc : Z) (input : Z) : Z * Z :=
  let acc_max := p2 d2 in
  let acc_min := - p2 d2 in
  let acc1 := zclamp acc_min acc_max (acc + zsum [input; 1]) in
  let output := b2z (acc1 >=? 2) in
  (acc1 - output * 2, output).
