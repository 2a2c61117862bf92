(** Model of /repo/kernel/conv.py: FSUConv2dPC and FSUConv2d. A tensor of shape (N, C, H, W) is a list of N images,
    each a list of C channels, each a list of H rows of W entries. *)
From Coq Require Import String.
Require Export Verif.Base Verif.GenModel Verif.AddModel Verif.UtilsModel Verif.LinearModel.
Open Scope Z_scope.

Notation image A := (list (list (list A))).

(** The padding argument: a number or a pair of numbers (strings are not modelled). *)
Inductive convpad : Type := PadNum (p : nat) | PadPair (a b : nat).

(** conv.py:156-161, 202-217: the attributes of a constructed FSUConv2dPC. The weight is stored in its view(1, out, -1):
    [pc_weight], of width [pc_in] = in_channels * kernel height * kernel width. Numbers given for kernel_size, stride
    and dilation have been turned into pairs (num2tuple; torch.nn.functional.unfold does the same). *)
Record conv_cfg : Type := {
  cv_pc : pc_cfg;
  cv_chan : nat;
  cv_kernel : nat * nat;
  cv_stride : nat * nat;
  cv_dil : nat * nat;
  cv_pad : convpad
}.

(** weight.size() = (out_channels, in_channels, kh, kw), conv.py:185. *)
Definition shape4 {A : Type} (o c kh kw : nat) (w : list (list (list (list A)))) : bool :=
  (length w =? o)%nat && forallb (fun f => (length f =? c)%nat && forallb (shape2 kh kw) f) w.

(** weight.view(1, out, -1), conv.py:202: row-major over (channel, kernel row, kernel column). *)
Definition flat_filter {A : Type} (f : list (list (list A))) : list A := concat (map (@concat A) f).

(** conv.py:114-217. Order of the failing checks as in the code: torch.nn.Conv2d's own checks of groups and padding_mode
    (ValueError), mode (153), groups (163), padding_mode (165), RNG (177), weight shape (185), bias shape (190), BSGen of
    the bias with the attribute brng, only set when bias_ext is given (205). [weight_init]: what torch.nn.Conv2d draws (see
    [pc_new]). The dtype assertions are not modelled; in torch.nn.Conv2d groups is at least 1. *)
Definition padding_mode_known (s : string) : bool :=
  (s =? "zeros")%string || (s =? "reflect")%string || (s =? "replicate")%string || (s =? "circular")%string.
Definition conv_new (ext : rng_ext) (in_channels out_channels : nat) (kernel stride : nat * nat) (pad : convpad)
           (dil : nat * nat) (groups : nat) (bias : bool) (padding_mode : string)
           (weight_ext : option (list (list (list (list Q))))) (bias_ext : option (list Q))
           (weight_init : list (list (list (list Q)))) (width : nat) (mode_name rng_name : string) (dimr : nat)
  : result conv_cfg :=
  if negb ((in_channels mod groups =? 0) && (out_channels mod groups =? 0))%nat then Err ValueError else
  if negb (padding_mode_known padding_mode) then Err ValueError else
  bind (mode_parse mode_name) (fun m =>
  if negb (groups =? 1)%nat then Err AssertionError else
  if negb (padding_mode =? "zeros")%string then Err AssertionError else
  bind (rng_parse rng_name) (fun k =>
  let wrng := rng_seq ext k width dimr in
  let '(kh, kw) := kernel in
  bind (match weight_ext with
        | None => Ok (map (fun f => map Qceiling (flat_filter f)) weight_init)
        | Some we => if shape4 out_channels in_channels kh kw we
                     then Ok (map (fun f => map (bingen m width) (flat_filter f)) we)
                     else Err AssertionError
        end) (fun w =>
  bind (if bias then
          match bias_ext with
          | None => Err AttributeError
          | Some be => if (length be =? out_channels)%nat then Ok (Some (map (bingen m width) be))
                       else Err AssertionError
          end
        else Ok None) (fun b =>
  Ok {| cv_pc := {| pc_mode := m; pc_wtc := is_tc k; pc_rng := wrng; pc_in := in_channels * kh * kw; pc_out := out_channels;
                    pc_weight := w; pc_bias := b |};
        cv_chan := in_channels; cv_kernel := kernel; cv_stride := stride; cv_dil := dil; cv_pad := pad |})))).

(** ** Padding and unfolding *)

(** A constant border of a channel: top, bottom, left, right. *)
Definition pad_axis {A : Type} (l r : nat) (v : A) (xs : list A) : list A := repeat v l ++ xs ++ repeat v r.
Definition pad_channel {A : Type} (t b l r : nat) (v : A) (ch : list (list A)) : list (list A) :=
  let ch' := map (pad_axis l r v) ch in
  pad_axis t b (repeat v (length (hd [] ch'))) ch'.

(** torch.nn.ConstantPad2d(padding, v), conv.py:215-216: a number pads all four sides; a pair (a, b) is
    read as (left, right) and leaves the top and the bottom alone. *)
Definition constant_pad {A : Type} (p : convpad) (v : A) (img : image A) : image A :=
  match p with
  | PadNum p => map (pad_channel p p p p v) img
  | PadPair a b => map (pad_channel 0 0 a b v) img
  end.

(** torch.nn.functional.unfold, one axis: the number of window positions. *)
Definition unfold_axis (n k s d : nat) : Z :=
  (Z.of_nat n - Z.of_nat d * (Z.of_nat k - 1) - 1) / Z.of_nat s + 1.

(** One column of unfold = one row after transpose(1,2), conv.py:231-232, 293-294: the window at (y, x). [v] is only the
    default of an access out of range. *)
Definition window_row {A : Type} (v : A) (kernel stride dil : nat * nat) (img : image A) (y x : nat) : list A :=
  flat_map (fun ch =>
    flat_map (fun i =>
      map (fun j => nth (x * snd stride + j * snd dil) (nth (y * fst stride + i * fst dil) ch []) v) (seq 0 (snd kernel)))
    (seq 0 (fst kernel))) img.

(** The last two sizes of a tensor. *)
Definition size_hw {A : Type} (imgs : list (image A)) : nat * nat :=
  match imgs with (ch :: _) :: _ => (length ch, length (hd [] ch)) | _ => (0%nat, 0%nat) end.

(** conv.py:231-233, 293-295: unfold without padding, transpose, reshape to (N*L, C*kh*kw). unfold raises if an axis has no
    position. *)
Definition unfold_rows {A : Type} (v : A) (kernel stride dil : nat * nat) (imgs : list (image A)) : result (list (list A)) :=
  let hw := size_hw imgs in
  let ho := unfold_axis (fst hw) (fst kernel) (fst stride) (fst dil) in
  let wo := unfold_axis (snd hw) (snd kernel) (snd stride) (snd dil) in
  if (ho <? 1) || (wo <? 1) then Err RuntimeError else
  Ok (flat_map (fun img => flat_map (fun y => map (window_row v kernel stride dil img y) (seq 0 (Z.to_nat wo))) (seq 0 (Z.to_nat ho))) imgs).

(** conv.py:250-252, 312-314: reshape(N, -1, O), transpose, fold(output_size, (1,1)). fold raises when the number of rows is not
    N times the output size. *)
Definition fold_rows {A : Type} (d : A) (n o ho wo : nat) (rows : list (list A)) : list (image A) :=
  map (fun b => map (fun q => map (fun y => map (fun x => nth q (nth (b * (ho * wo) + (y * wo + x)) rows []) d)
    (seq 0 wo)) (seq 0 ho)) (seq 0 o)) (seq 0 n).
Definition fold {A : Type} (d : A) (n o : nat) (size : Z * Z) (rows : list (list A)) : result (list (image A)) :=
  let '(ho, wo) := size in
  if (ho <? 1) || (wo <? 1) || negb (Z.of_nat (length rows) =? Z.of_nat n * (ho * wo)) then Err RuntimeError
  else Ok (fold_rows d n o (Z.to_nat ho) (Z.to_nat wo) rows).

(** ** FSUConv2dPC.forward *)

(** [cv_idx]: wrdx_i1, wrdx_i0, brdx; [cv_even]: even_cycle_flag. *)
Record conv_st : Type := { cv_idx : pc_st; cv_even : bool }.
Definition conv_init (c : conv_cfg) : conv_st := {| cv_idx := pc_init (cv_pc c); cv_even := true |}.

(** The pad argument as conv2d_output_shape receives it. *)
Definition pad_arg (p : convpad) : padarg :=
  match p with PadNum p => PNum (Z.of_nat p) | PadPair a b => PPair (Num (Z.of_nat a)) (Num (Z.of_nat b)) end.
Definition natpair (p : nat * nat) : UtilsModel.num := Pair (Z.of_nat (fst p)) (Z.of_nat (snd p)).

Definition add4 (a b : list (image Z)) : list (image Z) := map2 (map2 (map2 (map2 Z.add))) a b.
(** obin_fold += bbit.view(1, -1, 1, 1).expand_as(obin_fold), conv.py:257, 319. *)
Definition add_bias4 (t : list (image Z)) (b : list Z) : list (image Z) :=
  map (fun img => map2 (fun ch v => map (map (fun z => z + v)) ch) img b) t.

(** conv.py:219-343: input of shape (N, C, H, W). torch.cat of no tensors (N = 0) and shapes that do
    not broadcast raise. Sums are exact in float32 below 2^24. *)
Definition conv_step (c : conv_cfg) (s : conv_st) (input : list (image Z)) : result (conv_st * list (image Z)) :=
  let pc := cv_pc c in
  let size := conv2d_output_shape (natpair (size_hw input)) (natpair (cv_kernel c)) (natpair (cv_stride c)) (pad_arg (cv_pad c)) (natpair (cv_dil c)) in
  let padded := map (constant_pad (cv_pad c) (if cv_even s then 0 else 1)) input in
  let even' := xorb (match pc_mode pc with Bipolar => true | Unipolar => false end) (cv_even s) in
  bind (unfold_rows 0 (cv_kernel c) (cv_stride c) (cv_dil c) padded) (fun rows =>
  let batch := length rows in
  if (batch =? 0)%nat then Err RuntimeError else
  if negb (forallb (fun r => (length r =? pc_in pc)%nat) rows) then Err RuntimeError else
  let st := cv_idx s in
  let w1 := expand batch (wbits (pc_weight pc) (pc_rng pc) (pc_i1 st)) in
  let i1 := expand batch (pc_i1 st) in
  bind (bcast (length i1) rows) (fun x =>
  let nx := map (map (fun b => 1 - b)) x in
  let i1' := add_rows i1 (if pc_wtc pc then map (map (fun _ => 1)) x else x) in
  bind (fold 0 (length input) (pc_out pc) size (matmul x w1)) (fun o1 =>
  let o1 := match pc_bias pc with
            | None => o1
            | Some b => add_bias4 o1 (map2 (fun v i => bsgen_bit v (pc_rng pc) i) b (pc_brdx st))
            end in
  let brdx' := match pc_bias pc with None => pc_brdx st | Some _ => map (fun i => i + 1) (pc_brdx st) end in
  match pc_mode pc with
  | Unipolar => Ok ({| cv_idx := {| pc_i1 := i1'; pc_i0 := pc_i0 st; pc_brdx := brdx' |}; cv_even := even' |}, o1)
  | Bipolar =>
      if pc_wtc pc then
        bind (fold 0 (length input) (pc_out pc) size (matmul nx (neg3 w1))) (fun o0 =>
        Ok ({| cv_idx := {| pc_i1 := i1'; pc_i0 := pc_i0 st; pc_brdx := brdx' |}; cv_even := even' |}, add4 o1 o0))
      else
        let w0 := expand batch (neg3 (wbits (pc_weight pc) (pc_rng pc) (pc_i0 st))) in
        let i0' := add_rows (expand batch (pc_i0 st)) nx in
        bind (fold 0 (length input) (pc_out pc) size (matmul nx w0)) (fun o0 =>
        Ok ({| cv_idx := {| pc_i1 := i1'; pc_i0 := i0'; pc_brdx := brdx' |}; cv_even := even' |}, add4 o1 o0))
  end))).

(** ** FSUConv2d *)

(** conv.py:57-59, 80-95: the accumulator has math.prod(kernel_size) * in_channels + bias entries. *)
Definition fconv_new (ext : rng_ext) (in_channels out_channels : nat) (kernel stride : nat * nat) (pad : convpad)
           (dil : nat * nat) (groups : nat) (bias : bool) (padding_mode : string)
           (weight_ext : option (list (list (list (list Q))))) (bias_ext : option (list Q))
           (weight_init : list (list (list (list Q)))) (width : nat) (mode_name rng_name : string) (dimr : nat)
           (scale : option Q) (depth : Z) : result (conv_cfg * fsuadd_cfg) :=
  let tc := match rng_parse rng_name with Ok k => is_tc k | Err _ => false end in
  let entry := inject_Z (Z.of_nat (fst kernel * snd kernel * in_channels) + b2z bias) in
  let unscaled := match scale with None => false | Some q => negb (Qeq_bool q entry) end in
  if ((lower mode_name =? "bipolar")%string && unscaled && tc)%bool then Err AssertionError else
  bind (conv_new ext in_channels out_channels kernel stride pad dil groups bias padding_mode weight_ext bias_ext weight_init
                 width mode_name rng_name dimr)
       (fun c => Ok (c, {| fa_mode := pc_mode (cv_pc c);
                           fa_scale := Some (match scale with None => entry | Some q => q end);
                           fa_depth := depth;
                           fa_entry := Some (Z.of_nat (fst kernel * snd kernel * in_channels) + b2z bias) |})).

(** The accumulator tensor broadcasts from shape (1) to the shape of the counts at the first call (add.py:53-59, 96);
    later its shape agrees with theirs unless N*L has changed, and then FSUConv2dPC has already raised. *)
Record fconv_st : Type := { fc_pc : conv_st; fc_acc : option (list (image fsuadd_st)) }.
Definition fconv_init (c : conv_cfg) : fconv_st := {| fc_pc := conv_init c; fc_acc := None |}.

(** conv.py:97-101: forward(input, scale, entry). *)
Definition fconv_step (c : conv_cfg) (a : fsuadd_cfg) (s : fconv_st) (inp : list (image Z) * option Q * option Z)
  : result (fconv_st * list (image Z)) :=
  let '(input, scale, entry) := inp in
  bind (conv_step c (fc_pc s) input) (fun r =>
  let '(pc', pc) := r in
  let acc := match fc_acc s with
             | None => map (map (map (map (fun _ => fsuadd_init a)))) pc
             | Some acc => acc
             end in
  let lanes := map2 (map2 (map2 (map2 (fun st p => fsuadd_call a st ([p], scale, entry))))) acc pc in
  Ok ({| fc_pc := pc'; fc_acc := Some (map (map (map (map fst))) lanes) |}, map (map (map (map snd))) lanes)).
