(** Model of the binary-interfaced layers of /repo/kernel/linear.py: HUBLinear, FXPLinear, TLUTLinear.
    Exact rational arithmetic; matrices are lists of rows. *)
From Coq Require Import String.
Require Export Verif.Base Verif.GenModel Verif.UtilsModel Verif.LinearModel.
Open Scope Z_scope.

(** torch.matmul(a, b.t()) on rationals. *)
Definition qdot (x w : list Q) : Q := qsum (map2 Qmult x w).
Definition qmatmul_t (a b : list (list Q)) : list (list Q) := map (fun x => map (qdot x) b) a.
(** output += bias.unsqueeze(0).expand_as(output), if there is one. *)
Definition add_bias (bias : option (list Q)) (o : list (list Q)) : list (list Q) :=
  match bias with None => o | Some b => map (fun r => map2 Qplus r b) o end.

(** ** HUBLinear *)

(** linear.py:393-398: torch.sum(val > rng) over the whole sequence, for every value below cycle_max. *)
Definition hub_ctler (cycle_max : nat) (rngctler : list Z) : list Z :=
  map (fun v => zsum (map (fun r => b2z (v >? r)) rngctler)) (zrange cycle_max).
(** linear.py:400-406: row c is the number of ones of each value within the first mapctler[c] entries. *)
Definition hub_table (cycle_max : nat) (rngctler rngctlee : list Z) : list (list Z) :=
  map (fun n => map (fun v => zsum (firstn (Z.to_nat n) (map (fun r => b2z (v >? r)) rngctlee))) (zrange cycle_max))
      (hub_ctler cycle_max rngctler).

Record hub_cfg : Type := { hub_cycle : Z; hub_map : list (list Z) }.

(** linear.py:316-406, the part that decides the table. [cycle]: hwcfg["cycle"] ([None] makes min() at :316 raise).
    [exti], [extw]: what the two RNG objects draw from outside. Widths are at least 1 (signmag takes one bit). torch.gt at :397/:404 needs both sequences to have
    cycle_max entries (or one, by broadcasting); with cycle_max = 1 squeeze_() leaves a 0-dim tensor that cannot be
    indexed (:406). Quantile, rounding and signmag assertions and the weight/bias shape checks: NewModel.hublin_new. *)
Definition hub_new (exti extw : rng_ext) (widthi widthw : nat) (rngi rngw : string) (cycle : option Z) : result hub_cfg :=
  match cycle with
  | None => Err TypeError
  | Some cyc =>
      let itc := match rng_parse rngi with Ok k => is_tc k | Err _ => false end in
      let wtc := match rng_parse rngw with Ok k => is_tc k | Err _ => false end in
      if itc && wtc then Err AssertionError else
      let cycle_max := (2 ^ (Nat.max widthi widthw - 1))%nat in
      bind (rng_new exti rngi (widthi - 1) 1) (fun irng =>
      bind (rng_new extw rngw (widthw - 1) 1) (fun wrng =>
      let '(ctler, ctlee) := if (negb itc && wtc)%bool then (wrng, irng) else (irng, wrng) in
      let fits l := ((length l =? cycle_max) || (length l =? 1))%nat in
      if negb (fits ctler && fits ctlee) then Err RuntimeError
      else if (cycle_max =? 1)%nat then Err IndexError
      else if negb ((widthi =? widthw)%nat) then
             (* one sequence has a single entry that broadcasts to all columns *)
             let wide l := if (length l =? 1)%nat then repeat (nthZ l 0) cycle_max else l in
             Ok {| hub_cycle := Z.min cyc (Z.of_nat cycle_max); hub_map := hub_table cycle_max (wide ctler) (wide ctlee) |}
           else Ok {| hub_cycle := Z.min cyc (Z.of_nat cycle_max); hub_map := hub_table cycle_max ctler ctlee |}))
  end.

(** linear.py:447-448, 460-461: magnitude of one element, cycle >= 1. *)
Definition hub_mag (cycle rshift : Z) (x : Q) : Z := zclamp 0 (cycle - 1) (Z.abs (qround (qshr x rshift))).

(** linear.py:451-474, one product: sign(x) * (map[|x|][|w|] * sign(w)). *)
Definition hub_mul (c : hub_cfg) (ri rw : Z) (x w : Q) : Z :=
  qsign x * (nthZ (nth (Z.to_nat (hub_mag (hub_cycle c) ri x)) (hub_map c) []) (hub_mag (hub_cycle c) rw w) * qsign w).

(** linear.py:431-480 (batch >= 1). *)
Definition hub_forward (c : hub_cfg) (ri rw ro : Z) (input weight : list (list Q)) (bias : option (list Q)) : list (list Q) :=
  add_bias bias
    (map (fun x => map (fun w => qshr (inject_Z (zsum (map2 (hub_mul c ri rw) x w))) ro) weight) input).

(** linear.py:413-420: offsets from the data with one bit less than the widths. *)
Definition hub_linear (c : hub_cfg) (widthi widthw : nat) (r : rounding) (qi qw : Q)
           (input weight : list (list Q)) (bias : option (list Q)) : result (option (list (list Q))) :=
  bind (rshift_offset (concat input) (concat weight) (Z.of_nat widthi - 1) (Z.of_nat widthw - 1) r qi qw)
       (fun o => Ok (match o with
                     | None => None
                     | Some (ri, rw, ro) => Some (hub_forward c ri rw ro input weight bias)
                     end)).

(** ** FXPLinear *)

(** linear.py:586-588, 596-598: round, then clamp to +-(max_abs - 1). *)
Definition fxp_quant (rshift max_abs : Z) (x : Q) : Z := zclamp (1 - max_abs) (max_abs - 1) (qround (qshr x rshift)).

(** linear.py:572-606. *)
Definition fxp_forward (ri rw ro mi mw : Z) (input weight : list (list Q)) (bias : option (list Q)) : list (list Q) :=
  add_bias bias
    (map (fun x => map (fun w => qshr (inject_Z (zsum (map2 (fun a b => fxp_quant ri mi a * fxp_quant rw mw b) x w))) ro)
                       weight) input).

(** linear.py:549-563. *)
Definition fxp_linear (widthi widthw : nat) (r : rounding) (qi qw : Q)
           (input weight : list (list Q)) (bias : option (list Q)) : result (option (list (list Q))) :=
  bind (rshift_offset (concat input) (concat weight) (Z.of_nat widthi - 1) (Z.of_nat widthw - 1) r qi qw)
       (fun o => Ok (match o with
                     | None => None
                     | Some (ri, rw, _) => Some (fxp_forward ri rw (0 - ri - rw) (p2 widthi) (p2 widthw) input weight bias)
                     end)).

(** ** TLUTLinear *)

(** linear.py:749-750. *)
Definition tlut_degree (width widtht : nat) : nat := ((width + widtht - 1) / widtht)%nat.
Definition tlut_delta (width widtht : nat) : Z := Z.of_nat (tlut_degree width widtht * widtht) - Z.of_nat width.

(** linear.py:719-725. *)
Definition tlut_cycle (widtht : nat) (cycle : option Z) : Z :=
  match cycle with None => p2 widtht | Some c => Z.min c (p2 widtht) end.

(** linear.py:789-794 (also :799-804, :857-862, :869-874, :933-938), one element: one digit per iteration, least
    significant first. *)
Fixpoint tlut_loop (degree : nat) (widtht cycle : Z) (x new : Q) : Q :=
  match degree with
  | O => new
  | S d =>
      let x := qshr x widtht in
      let frac := qfrac x in
      let x := inject_Z (qtrunc x) in
      let frac := qclamp (inject_Z (- cycle + 1)) (inject_Z (cycle - 1)) (qshl frac widtht) in
      tlut_loop d widtht cycle x (qshr frac widtht + qshr new widtht)%Q
  end.

(** linear.py:784-785: trunc(clamp(x >> rshift)). *)
Definition tlut_quant (width : nat) (rshift : Z) (x : Q) : Z :=
  qtrunc (qclamp (inject_Z (- p2 width + 1)) (inject_Z (p2 width - 1)) (qshr x rshift)).

(** linear.py:787-795 (:797-806): the temporal coded operand. *)
Definition tlut_temporal (width widtht : nat) (cycle rshift : Z) (x : Q) : Q :=
  qshl (tlut_loop (tlut_degree width widtht) (Z.of_nat widtht) cycle (inject_Z (tlut_quant width rshift x)) 0)
       (tlut_delta width widtht + Z.of_nat width + rshift).
(** linear.py:796, 805: the other operand. *)
Definition tlut_plain (width : nat) (rshift : Z) (x : Q) : Q := qshl (inject_Z (tlut_quant width rshift x)) rshift.

(** linear.py:772-812; [tin]: the input is the temporal coded operand. [widthi], [widthw] are hwcfg widths - 1. *)
Definition tlut_fxpfxp (tin : bool) (widthi widthw widtht : nat) (cycle ri rw : Z)
           (input weight : list (list Q)) (bias : option (list Q)) : list (list Q) :=
  add_bias bias
    (if tin then qmatmul_t (map (map (tlut_temporal widthi widtht cycle ri)) input) (map (map (tlut_plain widthw rw)) weight)
     else qmatmul_t (map (map (tlut_plain widthi ri)) input) (map (map (tlut_temporal widthw widtht cycle rw)) weight)).

(** linear.py:845-882: only the temporal coded operand is quantised. *)
Definition tlut_fxpfp (tin : bool) (width widtht : nat) (cycle ri rw : Z)
           (input weight : list (list Q)) (bias : option (list Q)) : list (list Q) :=
  add_bias bias
    (if tin then qmatmul_t (map (map (tlut_temporal width widtht cycle ri)) input) weight
     else qmatmul_t input (map (map (tlut_temporal width widtht cycle rw)) weight)).

(** torch.frexp: x = mantissa * 2^exponent with 1/2 <= |mantissa| < 1; (0, 0) for 0. *)
Definition qfrexp (x : Q) : Q * Z :=
  if Qeq_bool x 0 then (0%Q, 0) else let e := qlog2_floor (Qabs x) + 1 in (qshr x e, e).

(** linear.py:921-943: mantissa << width through the loop, << delta, ldexp. *)
Definition tlut_mantissa (width widtht : nat) (cycle : Z) (x : Q) : Q :=
  let '(mantissa, exponent) := qfrexp x in
  qshl (qshl (tlut_loop (tlut_degree width widtht) (Z.of_nat widtht) cycle (qshl mantissa (Z.of_nat width)) 0)
             (tlut_delta width widtht)) exponent.

(** linear.py:915-953. *)
Definition tlut_fpfp (tin : bool) (width widtht : nat) (cycle : Z)
           (input weight : list (list Q)) (bias : option (list Q)) : list (list Q) :=
  add_bias bias
    (if tin then qmatmul_t (map (map (tlut_mantissa width widtht cycle)) input) weight
     else qmatmul_t input (map (map (tlut_mantissa width widtht cycle)) weight)).

(** ** Gradients *)

(** linear.py:484-504, 610-630, 816-836, 886-906, 957-977 (the same code five times): matmul(grad_output, weight),
    matmul(grad_output.t(), input), grad_output.sum(0). [ni], [no]: in_features, out_features. *)
Definition qcol (m : list (list Q)) (j : nat) : list Q := map (fun r => nth j r 0%Q) m.
Definition grad_input (ni : nat) (g weight : list (list Q)) : list (list Q) :=
  map (fun r => map (fun j => qdot r (qcol weight j)) (seq 0 ni)) g.
Definition grad_weight (no ni : nat) (g input : list (list Q)) : list (list Q) :=
  map (fun o => map (fun j => qdot (qcol g o) (qcol input j)) (seq 0 ni)) (seq 0 no).
Definition grad_bias (no : nat) (g : list (list Q)) : list Q := map (fun o => qsum (qcol g o)) (seq 0 no).
