(** float32 evaluation of BinGen (/repo/stream/gen.py) and of the matrix products of the layers (/repo/kernel/linear.py; the convolutions of
    /repo/kernel/conv.py call the same functions on unfolded rows). *)
Require Export Verif.Base Verif.GenModel Verif.HubModel Verif.Float32Model.
Open Scope Z_scope.

(** How a library may add up the terms of one output of torch.matmul: in any order and grouping, starting from zeros or not, with products
    rounded first ([Term]) or fused with the addition ([Fma]). *)
Inductive sumtree : Type :=
| Zero : sumtree
| Term : Q -> sumtree
| Add : sumtree -> sumtree -> sumtree
| Fma : sumtree -> Q -> sumtree.
Fixpoint leaves (t : sumtree) : list Q :=
  match t with Zero => [] | Term q => [q] | Add l r => leaves l ++ leaves r | Fma l q => leaves l ++ [q] end.
Fixpoint eval32 (t : sumtree) : Q :=
  match t with
  | Zero => 0%Q
  | Term q => f32 q
  | Add l r => f32 (eval32 l + eval32 r)
  | Fma l q => f32 (eval32 l + q)
  end.

(** gen.py:134-141: source, or source.add(1).div(2); times 2**width; round. *)
Definition bingen32 (m : mode) (width : nat) (source : Q) : Z :=
  let b := match m with Unipolar => source | Bipolar => f32 (f32 (source + 1) / 2) end in
  qround (f32 (b * inject_Z (p2 width))).

(** linear.py:447-448, 460-461: (x >> rshift).round().type(torch.long), abs, clamp. *)
Definition hub32_mag (cycle rshift : Z) (x : Q) : Z := zclamp 0 (cycle - 1) (Z.abs (qround (f32 (qshr x rshift)))).
(** linear.py:451-474: sign(x) times (map[|x|][|w|] * sign(w)), the inner product rounded to float32; the outer one is a term of the matmul. *)
Definition hub32_term (c : hub_cfg) (ri rw : Z) (x w : Q) : Q :=
  (inject_Z (qsign x) *
   f32 (inject_Z (nthZ (nth (Z.to_nat (hub32_mag (hub_cycle c) ri x)) (hub_map c) []) (hub32_mag (hub_cycle c) rw w)) * inject_Z (qsign w)))%Q.
(** linear.py:586-588, 596-598 (the clamp limits are integers) and the product of 601. *)
Definition fxp32_quant (rshift max_abs : Z) (x : Q) : Q :=
  qclamp (inject_Z (1 - max_abs)) (inject_Z (max_abs - 1)) (inject_Z (qround (f32 (qshr x rshift)))).
Definition fxp32_term (ri rw mi mw : Z) (x w : Q) : Q := (fxp32_quant ri mi x * fxp32_quant rw mw w)%Q.
(** linear.py:474-479, 601-605: one output of the matmul, evaluated as [t] says; >> rshift_o; += bias. *)
Definition out32 (t : sumtree) (ro : Z) (bias : option Q) : Q :=
  let o := f32 (qshr (eval32 t) ro) in
  match bias with None => o | Some b => f32 (o + b) end.
