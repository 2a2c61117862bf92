(** Model of /repo/kernel/utils.py. *)
From Coq Require Import String.
Require Import Verif.Base.
Open Scope string_scope.
Open Scope list_scope.
Open Scope Z_scope.

(** ** Weight clipper, utils.py:7-59 *)
(** Minimum and maximum of a non-empty tensor ([torch.min], [torch.max]); only used on non-empty tensors. *)
Definition qmin_list (l : list Q) : Q := match l with [] => 0%Q | x :: r => fold_left qmin r x end.
Definition qmax_list (l : list Q) : Q := match l with [] => 0%Q | x :: r => fold_left qmax r x end.

Inductive clip_method : Type := Clip | Norm.

(** utils.py:43, 53: the quantiser at the end of every branch, one element; g is self.scale or self.scale/2. *)
Definition clip_quant (lo g x : Q) : Q := (qclamp lo g (inject_Z (qround (x * g))) / g)%Q.

(** utils.py:36-59 [clipping]; the parameter bitwidth >= 0.
    The 0/0 of a constant tensor in "norm" (nan in torch, and every element stays nan) is [None];
    [torch.min] of an empty tensor raises.
    [torch.max(w) - torch.min(w)] is evaluated after the in-place subtraction of the minimum.
    Reals as exact rationals, no float32 rounding. *)
Definition clipping (m : mode) (meth : clip_method) (bitwidth : nat) (w : list Q) : result (option (list Q)) :=
  let scale := inject_Z (p2 bitwidth) in
  match meth with
  | Norm =>
      match w with
      | [] => Err RuntimeError
      | _ =>
          let w1 := map (fun x => x - qmin_list w)%Q w in
          let d := (qmax_list w1 - qmin_list w1)%Q in
          if Qeq_bool d 0 then Ok None
          else
            let w2 := map (fun x => x / d)%Q w1 in
            Ok (Some (match m with
                      | Unipolar => map (clip_quant 0 scale) w2
                      | Bipolar => map (fun x => clip_quant (- (scale / 2)) (scale / 2) (x * 2 - 1)) w2
                      end%Q))
      end
  | Clip =>
      Ok (Some (match m with
                | Unipolar => map (fun x => clip_quant 0 scale (qclamp 0 1 x)) w
                | Bipolar => map (fun x => clip_quant (- (scale / 2)) (scale / 2) (qclamp (-1) 1 x)) w
                end%Q))
  end.

(** The attributes of a module the clipper looks at: absent, None, or a tensor
    ([None] inside the tensor: filled with nan). *)
Inductive attr : Type := Missing | IsNone | Tensor (w : option (list Q)).
Record module_ : Type := { m_weight : attr; m_bias : attr }.

(** utils.py:37, 46: the mode string, compared exactly (not lowered, unlike everywhere else). *)
Definition clip_mode (s : string) : option mode :=
  if String.eqb s "unipolar" then Some Unipolar else if String.eqb s "bipolar" then Some Bipolar else None.

(** utils.py:26-28 (weight) and :30-32 (bias): the attribute afterwards and the exception, if one is raised.
    An exception inside [clipping] is raised before anything is written. *)
Definition clip_attr (mode_name : string) (meth : clip_method) (bitwidth : nat) (a : attr) : attr * option pyerr :=
  match a with
  | Missing => (Missing, None)                           (* hasattr is False *)
  | IsNone => (IsNone, Some AttributeError)              (* None.data *)
  | Tensor w =>
      match clip_mode mode_name with
      | None => (a, Some TypeError)                      (* utils.py:56-58 *)
      | Some m =>
          match w with
          | None => (a, None)                            (* nan stays nan *)
          | Some v => match clipping m meth bitwidth v with Ok r => (Tensor r, None) | Err e => (a, Some e) end
          end
      end
  end.

(** The clipper object, utils.py:11-17. *)
Record clipper : Type := { cl_freq : Z; cl_mode : string; cl_method : clip_method; cl_bits : nat }.

(** utils.py:19-34 [__call__]: the clipper and the module afterwards, and the exception, if one is raised.
    The method is overwritten first (:21-24); when the weight raises, the bias is not touched; when either raises,
    the frequency is not incremented (:34), but a weight already clipped in place stays clipped. *)
Definition clip_call (c : clipper) (md : module_) : clipper * module_ * option pyerr :=
  let meth := if cl_freq c >? 1 then Clip else Norm in
  let next f := {| cl_freq := f; cl_mode := cl_mode c; cl_method := meth; cl_bits := cl_bits c |} in
  let (w, e) := clip_attr (cl_mode c) meth (cl_bits c) (m_weight md) in
  match e with
  | Some x => (next (cl_freq c), {| m_weight := w; m_bias := m_bias md |}, Some x)
  | None =>
      let (b, e2) := clip_attr (cl_mode c) meth (cl_bits c) (m_bias md) in
      let md2 := {| m_weight := w; m_bias := b |} in
      match e2 with
      | Some x => (next (cl_freq c), md2, Some x)
      | None => (next (cl_freq c + 1), md2, None)
      end
  end.

(** ** Shapes and padding, utils.py:62-105 *)
(** An argument that is a number or a pair; utils.py:62-63 [num2tuple]. *)
Inductive num : Type := Num (z : Z) | Pair (a b : Z).
Definition num2tuple (n : num) : Z * Z := match n with Num z => (z, z) | Pair a b => (a, b) end.

(** The padding argument: a number, or a pair of numbers or pairs. *)
Inductive padarg : Type := PNum (z : Z) | PPair (a b : num).
(** utils.py:67-69: [pad = num2tuple(pad); pad = num2tuple(pad[0]), num2tuple(pad[1])]. *)
Definition pad_tuple (p : padarg) : (Z * Z) * (Z * Z) :=
  match p with PNum z => ((z, z), (z, z)) | PPair a b => (num2tuple a, num2tuple b) end.

(** utils.py:71-72, one axis: [math.floor(n / stride + 1)]; the float division is modelled exactly
    (it is exact enough below 2^53). *)
Definition conv_axis (h k s p0 p1 d : Z) : Z :=
  Qfloor (inject_Z (h + (p0 + p1) - d * (k - 1) - 1) / inject_Z s + 1).

(** utils.py:66-74. stride 0 raises ZeroDivisionError in Python; statements assume stride >= 1. *)
Definition conv2d_output_shape (h_w k s : num) (pad : padarg) (d : num) : Z * Z :=
  let '(h, w) := num2tuple h_w in let '(k0, k1) := num2tuple k in let '(s0, s1) := num2tuple s in
  let '((p00, p01), (p10, p11)) := pad_tuple pad in let '(d0, d1) := num2tuple d in
  (conv_axis h k0 s0 p00 p01 d0, conv_axis w k1 s1 p10 p11 d1).

(** utils.py:77-85. *)
Definition convtransp2d_output_shape (h_w k s : num) (pad : padarg) (d out_pad : num) : Z * Z :=
  let '(h, w) := num2tuple h_w in let '(k0, k1) := num2tuple k in let '(s0, s1) := num2tuple s in
  let '((p00, p01), (p10, p11)) := pad_tuple pad in let '(d0, d1) := num2tuple d in
  let '(o0, o1) := num2tuple out_pad in
  ((h - 1) * s0 - (p00 + p01) + d0 * (k0 - 1) + o0 + 1, (w - 1) * s1 - (p10 + p11) + d1 * (k1 - 1) + o1 + 1).

(** utils.py:95: [(math.floor(p/2), math.ceil(p/2))]. *)
Definition halves (p : Q) : num := Pair (Qfloor (p / 2)) (Qceiling (p / 2)).

(** utils.py:88-95. *)
Definition conv2d_get_padding (h_w_in h_w_out k s d : num) : padarg :=
  let '(hi, wi) := num2tuple h_w_in in let '(ho, wo) := num2tuple h_w_out in let '(k0, k1) := num2tuple k in
  let '(s0, s1) := num2tuple s in let '(d0, d1) := num2tuple d in
  PPair (halves (inject_Z ((ho - 1) * s0 - hi + d0 * (k0 - 1) + 1)))
        (halves (inject_Z ((wo - 1) * s1 - wi + d1 * (k1 - 1) + 1))).

(** utils.py:98-105: p_h and p_w are already halved at :102-103 and halved again at :105. *)
Definition convtransp2d_get_padding (h_w_in h_w_out k s d out_pad : num) : padarg :=
  let '(hi, wi) := num2tuple h_w_in in let '(ho, wo) := num2tuple h_w_out in let '(k0, k1) := num2tuple k in
  let '(s0, s1) := num2tuple s in let '(d0, d1) := num2tuple d in let '(o0, o1) := num2tuple out_pad in
  PPair (halves (inject_Z (- (ho - 1 - o0 - d0 * (k0 - 1) - (hi - 1) * s0)) / 2))
        (halves (inject_Z (- (wo - 1 - o1 - d1 * (k1 - 1) - (wi - 1) * s1)) / 2)).

(** ** Truncated normal, utils.py:108-116 *)
(** utils.py:111, one element: t < mean - 2*std or t > mean + 2*std. *)
Definition tn_cond (mean std x : Q) : bool := qlt x (mean - 2 * std) || qgt x (mean + 2 * std).

(** utils.py:110-115, the loop. [draws]: the tensors the successive calls of [normal_] will return, in order.
    [None]: still looping when the draws are exhausted. The second component counts the draws consumed. *)
Fixpoint tn_loop (mean std : Q) (t : list Q) (draws : list (list Q)) (used : nat) : option (list Q * nat) :=
  if existsb (tn_cond mean std) t then
    match draws with
    | [] => None
    | d :: r => tn_loop mean std (map2 (fun x y => if tn_cond mean std x then y else x) t d) r (S used)
    end
  else Some (t, used).

(** utils.py:108-116: the tensor the caller passed (filled in place by the first draw, :109; later draws go to
    new tensors, :113), the returned tensor and the number of draws. *)
Definition truncated_normal (mean std : Q) (draws : list (list Q)) : option (list Q * list Q * nat) :=
  match draws with
  | [] => None
  | d :: r => match tn_loop mean std d r 1 with Some (t, n) => Some (d, t, n) | None => None end
  end.

(** ** Round, utils.py:171-206 *)
(** utils.py:182 with the bounds of :199-200, one element of a float tensor, exact rationals. *)
Definition round_fxp (intwidth fracwidth : Z) (x : Q) : Q :=
  let max_val := (qpow2 (intwidth + fracwidth) - 1)%Q in
  let min_val := (1 - qpow2 (intwidth + fracwidth))%Q in
  qshr (qclamp min_val max_val (inject_Z (qround (qshl x fracwidth)))) fracwidth.
(** utils.py:202-206: None passes through. *)
Definition round_forward (intwidth fracwidth : Z) (x : option (list Q)) : option (list Q) :=
  match x with None => None | Some v => Some (map (round_fxp intwidth fracwidth) v) end.
(** utils.py:186-188. *)
Definition round_backward (grad_output : list Q) : list Q := grad_output.

(** ** Shift offsets, utils.py:209-242 *)
(** Ascending sort of a tensor, as inside [torch.quantile]. *)
Fixpoint qinsert (x : Q) (l : list Q) : list Q :=
  match l with [] => [x] | y :: r => if Qle_bool x y then x :: l else y :: qinsert x r end.
Fixpoint qsort (l : list Q) : list Q := match l with [] => [] | x :: r => qinsert x (qsort r) end.

(** [torch.quantile(x, q)], 0 <= q <= 1, default linear interpolation between the two nearest ranks. *)
Definition quantile (x : list Q) (q : Q) : Q :=
  let s := qsort x in
  let r := (q * inject_Z (zlen x - 1))%Q in
  let lo := nth (Z.to_nat (Qfloor r)) s 0%Q in
  let hi := nth (Z.to_nat (Qceiling r)) s 0%Q in
  (lo + (r - inject_Z (Qfloor r)) * (hi - lo))%Q.

(** utils.py:214-218. *)
Definition quantile_scale (x : list Q) (quant : Q) : Q :=
  let upper := ((1 # 2) - quant / 2)%Q in
  let lower := ((1 # 2) + quant / 2)%Q in
  qmax (Qabs (quantile x lower)) (Qabs (quantile x upper)).

(** [floor(log2 s)] for a positive rational s: the exponent e with 2^e <= s < 2^(e+1). *)
Definition qlog2_floor (s : Q) : Z :=
  let e := Z.log2 (Qnum s) - Z.log2 (Zpos (Qden s)) in
  if Qle_bool (qpow2 e) s then e else e - 1.

Inductive rounding : Type := RRound | RFloor | RCeil.

(** utils.py:219, 228-236: [scale.log2()] followed by round/floor/ceil, exactly:
    log2 s is an integer iff s is a power of two, and log2 s < f + 1/2 iff s^2 < 2^(2f+1)
    (equality is impossible for a rational s). Other strings (no rounding at all) are not modelled. *)
Definition log2_rounded (r : rounding) (s : Q) : Z :=
  let f := qlog2_floor s in
  match r with
  | RFloor => f
  | RCeil => if Qeq_bool s (qpow2 f) then f else f + 1
  | RRound => if Qle_bool (qpow2 (2 * f + 1)) (s * s) then f + 1 else f
  end.

(** utils.py:209-242. [None]: a scale is 0, log2 is -inf. [torch.quantile] raises on an empty tensor. *)
Definition rshift_offset (input weight : list Q) (widthi widthw : Z) (r : rounding) (qi qw : Q)
  : result (option (Z * Z * Z)) :=
  match input, weight with
  | [], _ => Err RuntimeError
  | _, [] => Err RuntimeError
  | _, _ =>
      let si := quantile_scale input qi in
      let sw := quantile_scale weight qw in
      if Qle_bool si 0 || Qle_bool sw 0 then Ok None
      else
        let im := log2_rounded r si in
        let wm := log2_rounded r sw in
        Ok (Some (im - widthi, wm - widthw, Z.max widthi widthw - im - wm))
  end.
