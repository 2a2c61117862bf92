(** Model of TLUTLinear as constructed and called (/repo/kernel/linear.py) and of the binary-interfaced convolutions of
    /repo/kernel/conv.py: HUBConv2d, FXPConv2d, TLUTConv2d. Exact rational arithmetic. *)
From Coq Require Import String.
Require Export Verif.Base Verif.GenModel Verif.UtilsModel Verif.LinearModel Verif.HubModel Verif.ConvModel.
Open Scope Z_scope.

(** ** TLUTLinear *)

(** linear.py:682-686: the declared format of an operand. *)
Inductive tformat : Type := TFxp | TBfloat16 | TFloat16 | TFloat32.
Definition format_parse (name : string) : result tformat :=
  let s := lower name in
  if (s =? "fxp")%string then Ok TFxp
  else if (s =? "bfloat16")%string then Ok TBfloat16
  else if (s =? "float16")%string then Ok TFloat16
  else if (s =? "float32")%string then Ok TFloat32
  else Err AssertionError.
(** linear.py:679-680, 730, 739: [true] when the input is temporal coded. *)
Definition temporal_parse (name : string) : result bool :=
  let s := lower name in
  if (s =? "i")%string || (s =? "input")%string then Ok true
  else if (s =? "w")%string || (s =? "weight")%string then Ok false
  else Err AssertionError.
(** linear.py:694-695. *)
Definition rounding_parse (name : string) : result rounding :=
  let s := lower name in
  if (s =? "round")%string then Ok RRound
  else if (s =? "ceil")%string then Ok RCeil
  else if (s =? "floor")%string then Ok RFloor
  else Err AssertionError.

Inductive tmode : Type := FxpFxp | FxpFp | FpFp.
Record tlut_cfg : Type := {
  tc_mode : tmode; tc_tin : bool; tc_widthi : nat; tc_widthw : nat; tc_width : nat; tc_widtht : nat; tc_cycle : Z;
  tc_round : rounding; tc_qi : Q; tc_qw : Q }.

(** linear.py:730-747: the width of the temporal operand. *)
Definition format_width (f : tformat) (width : nat) : nat :=
  match f with TFxp => width - 1 | TBfloat16 => 8 | TFloat16 => 11 | TFloat32 => 24 end%nat.
(** linear.py:711-716. *)
Definition tlut_mode (fi fw : tformat) : tmode :=
  match fi, fw with
  | TFxp, TFxp => FxpFxp
  | TFxp, _ => FxpFp
  | _, TFxp => FxpFp
  | _, _ => FpFp
  end.
(** linear.py:666-750, conv.py:661-747 (the same code), without the shape checks of the weight and the bias: the assertions in their order.
    Widths are at least 1, widtht at least 1. *)
Definition tlut_new (temporal formati formatw : string) (widthi widthw widtht : nat) (qi qw : Q) (cycle : option Z)
           (rnd : string) (signmag : bool) : result tlut_cfg :=
  bind (temporal_parse temporal) (fun tin =>
  bind (format_parse formati) (fun fi =>
  bind (format_parse formatw) (fun fw =>
  if negb (qgt qi 0 && Qle_bool qi 1) then Err AssertionError else
  if negb (qgt qw 0 && Qle_bool qw 1) then Err AssertionError else
  bind (rounding_parse rnd) (fun r =>
  if negb signmag then Err AssertionError else
  Ok {| tc_mode := tlut_mode fi fw; tc_tin := tin; tc_widthi := widthi - 1; tc_widthw := widthw - 1;
        tc_width := if tin then format_width fi widthi else format_width fw widthw; tc_widtht := widtht;
        tc_cycle := tlut_cycle widtht cycle; tc_round := r; tc_qi := qi; tc_qw := qw |})))).

(** linear.py:752-764 with 772-950: the three functions; the shifts come from the tensors handed to the function. [None]: a scale is 0. *)
Definition tlut_apply (c : tlut_cfg) (input weight : list (list Q)) (bias : option (list Q)) : result (option (list (list Q))) :=
  match tc_mode c with
  | FxpFxp =>
      bind (rshift_offset (concat input) (concat weight) (Z.of_nat (tc_widthi c)) (Z.of_nat (tc_widthw c)) (tc_round c) (tc_qi c) (tc_qw c))
        (fun o => Ok (match o with
                      | None => None
                      | Some (ri, rw, _) => Some (tlut_fxpfxp (tc_tin c) (tc_widthi c) (tc_widthw c) (tc_widtht c) (tc_cycle c) ri rw input weight bias)
                      end))
  | FxpFp =>
      bind (rshift_offset (concat input) (concat weight) (Z.of_nat (tc_width c)) (Z.of_nat (tc_width c)) (tc_round c) (tc_qi c) (tc_qw c))
        (fun o => Ok (match o with
                      | None => None
                      | Some (ri, rw, _) => Some (tlut_fxpfp (tc_tin c) (tc_width c) (tc_widtht c) (tc_cycle c) ri rw input weight bias)
                      end))
  | FpFp => Ok (Some (tlut_fpfp (tc_tin c) (tc_width c) (tc_widtht c) (tc_cycle c) input weight bias))
  end.

(** ** Convolutions *)

(** torch.nn.Conv2d stores kernel_size, stride, dilation and padding as pairs (vertical, horizontal); string paddings
    are not modelled. *)
Record bconv : Type := { bv_kernel : nat * nat; bv_stride : nat * nat; bv_dil : nat * nat; bv_pad : nat * nat }.

(** The zero border that torch.nn.functional.unfold assumes. *)
Definition bconv_pad (p : nat * nat) (imgs : list (image Q)) : list (image Q) :=
  map (map (pad_channel (fst p) (fst p) (snd p) (snd p) 0%Q)) imgs.

(** conv.py:506-508, 596-598, 755-757: unfold, transpose, reshape. *)
Definition bconv_rows (g : bconv) (imgs : list (image Q)) : result (list (list Q)) :=
  unfold_rows 0%Q (bv_kernel g) (bv_stride g) (bv_dil g) (bconv_pad (bv_pad g) imgs).

(** conv.py:504, 593, 752. *)
Definition bconv_size (g : bconv) (imgs : list (image Q)) : Z * Z :=
  conv2d_output_shape (natpair (size_hw imgs)) (natpair (bv_kernel g)) (natpair (bv_stride g))
    (PPair (Num (Z.of_nat (fst (bv_pad g)))) (Num (Z.of_nat (snd (bv_pad g))))) (natpair (bv_dil g)).

(** conv.py:512-519, 602-609, 772-779: reshape, transpose, fold, and the bias. [o] = mm_out.size()[-1]. *)
Definition bconv_out (g : bconv) (o : nat) (bias : option (list Q)) (imgs : list (image Q)) (mm_out : list (list Q)) : result (list (image Q)) :=
  bind (fold 0%Q (length imgs) o (bconv_size g imgs) mm_out) (fun output =>
  Ok (match bias with
      | None => output
      | Some b => map (fun img => map2 (fun ch v => map (map (fun z => (z + v)%Q)) ch) img b) output
      end)).

(** A 4-dimensional tensor as torch.quantile sees it. *)
Definition flat4 (t : list (image Q)) : list Q := concat (map flat_filter t).

(** The common frame: the rows through a matrix function without bias, then back. The channels of input and weight agree (torch raises
    otherwise). *)
Definition bconv_apply (g : bconv) (f : list (list Q) -> list (list Q) -> result (option (list (list Q))))
           (input weight : list (image Q)) (bias : option (list Q)) : result (option (list (image Q))) :=
  bind (bconv_rows g input) (fun rows =>
  bind (f rows (map flat_filter weight)) (fun mm =>
  match mm with
  | None => Ok None
  | Some mm_out => bind (bconv_out g (length weight) bias input mm_out) (fun out => Ok (Some out))
  end)).

(** conv.py:497-519: HUBConv2d.forward; the table is the one of HUBLinear (conv.py:390-490 repeats linear.py:303-406). The offsets are
    those of the whole input and weight. *)
Definition hubconv (c : hub_cfg) (g : bconv) (widthi widthw : nat) (r : rounding) (qi qw : Q)
           (input weight : list (image Q)) (bias : option (list Q)) : result (option (list (image Q))) :=
  bind (rshift_offset (flat4 input) (flat4 weight) (Z.of_nat widthi - 1) (Z.of_nat widthw - 1) r qi qw) (fun o =>
  bconv_apply g (fun rows w => Ok (match o with
                                   | None => None
                                   | Some (ri, rw, ro) => Some (hub_forward c ri rw ro rows w None)
                                   end)) input weight bias).

(** conv.py:585-609: FXPConv2d.forward. *)
Definition fxpconv (g : bconv) (widthi widthw : nat) (r : rounding) (qi qw : Q)
           (input weight : list (image Q)) (bias : option (list Q)) : result (option (list (image Q))) :=
  bind (rshift_offset (flat4 input) (flat4 weight) (Z.of_nat widthi - 1) (Z.of_nat widthw - 1) r qi qw) (fun o =>
  bconv_apply g (fun rows w => Ok (match o with
                                   | None => None
                                   | Some (ri, rw, _) => Some (fxp_forward ri rw (0 - ri - rw) (p2 widthi) (p2 widthw) rows w None)
                                   end)) input weight bias).

(** conv.py:749-779: TLUTConv2d.forward: the offsets are those of the unfolded rows. *)
Definition tlutconv (c : tlut_cfg) (g : bconv) (input weight : list (image Q)) (bias : option (list Q)) : result (option (list (image Q))) :=
  bconv_apply g (fun rows w => tlut_apply c rows w None) input weight bias.
