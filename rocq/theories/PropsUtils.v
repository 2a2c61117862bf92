(** Properties C36-C38, C43-C46: /repo/kernel/utils.py. *)
From Coq Require Import String.
Require Import Verif.BaseLemmas Verif.UtilsModel Verif.UtilsProof.
Open Scope string_scope.
Open Scope list_scope.
Open Scope Z_scope.

(** C36: on each axis the output size is the number of positions (0 when the formula gives a negative number)
    and position i exists iff its last tap is inside the padded input. *)
Theorem C36_conv_shape : forall h w k0 k1 s0 s1 p00 p01 p10 p11 d0 d1, 0 < s0 -> 0 < s1 -> 0 <= d0 * (k0 - 1) -> 0 <= d1 * (k1 - 1) ->
  let out := conv2d_output_shape (Pair h w) (Pair k0 k1) (Pair s0 s1) (PPair (Pair p00 p01) (Pair p10 p11)) (Pair d0 d1) in
  positions (p00 + h + p01) k0 s0 d0 = Z.max 0 (fst out) /\
  positions (p10 + w + p11) k1 s1 d1 = Z.max 0 (snd out) /\
  (forall i, 0 <= i -> (i < fst out <-> i * s0 + d0 * (k0 - 1) < p00 + h + p01)) /\
  (forall i, 0 <= i -> (i < snd out <-> i * s1 + d1 * (k1 - 1) < p10 + w + p11)).
Proof. exact conv_shape_spec. Qed.
Print Assumptions C36_conv_shape.
(** A plain number stands for both axes, and a padding number for all four sides. *)
Theorem C36_numbers : forall h_w k s pad d out_pad,
  conv2d_output_shape h_w k s pad d = conv2d_output_shape (both h_w) (both k) (both s) (both_pad pad) (both d) /\
  convtransp2d_output_shape h_w k s pad d out_pad = convtransp2d_output_shape (both h_w) (both k) (both s) (both_pad pad) (both d) (both out_pad).
Proof. exact conv_shape_numbers. Qed.
Print Assumptions C36_numbers.
Example C36_ex : conv2d_output_shape (Pair 28 9) (Num 3) (Num 2) (PPair (Num 1) (Pair 0 1)) (Pair 1 2) = (14, 3) /\
  positions 30 3 2 1 = 14 /\ positions 10 3 2 2 = 3.
Proof. repeat split; vm_compute; reflexivity. Qed.

(** C37. *)
Theorem C37_conv_padding : forall h_w_in h_w_out k s d,
  0 < fst (num2tuple s) -> 0 < snd (num2tuple s) ->
  let p := conv2d_get_padding h_w_in h_w_out k s d in
  conv2d_output_shape h_w_in k s p d = num2tuple h_w_out /\
  0 <= snd (fst (pad_tuple p)) - fst (fst (pad_tuple p)) <= 1 /\
  0 <= snd (snd (pad_tuple p)) - fst (snd (pad_tuple p)) <= 1.
Proof. exact conv_padding_roundtrip. Qed.
Print Assumptions C37_conv_padding.
Example C37_ex : conv2d_get_padding (Pair 28 20) (Pair 14 20) (Num 3) (Pair 2 1) (Pair 1 2) = PPair (Pair 0 1) (Pair 2 2).
Proof. vm_compute. reflexivity. Qed.

(** C38: the requested size is reproduced iff the total padding needed is -1, 0 or 1 on both axes. *)
Theorem C38_convtransp_padding : forall h_w_in h_w_out k s d out_pad,
  let need i o kk ss dd oo := (i - 1) * ss + dd * (kk - 1) + oo + 1 - o in
  let Th := need (fst (num2tuple h_w_in)) (fst (num2tuple h_w_out)) (fst (num2tuple k)) (fst (num2tuple s)) (fst (num2tuple d)) (fst (num2tuple out_pad)) in
  let Tw := need (snd (num2tuple h_w_in)) (snd (num2tuple h_w_out)) (snd (num2tuple k)) (snd (num2tuple s)) (snd (num2tuple d)) (snd (num2tuple out_pad)) in
  convtransp2d_output_shape h_w_in k s (convtransp2d_get_padding h_w_in h_w_out k s d out_pad) d out_pad = num2tuple h_w_out
  <-> -1 <= Th <= 1 /\ -1 <= Tw <= 1.
Proof. exact convtransp_padding. Qed.
Print Assumptions C38_convtransp_padding.
(** Kernel 4, stride 2, 14 -> 28 needs total padding 2 (1 on each side) and gets 0 + 1. *)
Theorem C38_convtransp_refuted : exists h_w_in h_w_out k s d out_pad,
  convtransp2d_output_shape h_w_in k s (PPair (Pair 1 1) (Pair 1 1)) d out_pad = num2tuple h_w_out /\
  convtransp2d_get_padding h_w_in h_w_out k s d out_pad = PPair (Pair 0 1) (Pair 0 1) /\
  convtransp2d_output_shape h_w_in k s (convtransp2d_get_padding h_w_in h_w_out k s d out_pad) d out_pad = (29, 29).
Proof. exists (Num 14), (Num 28), (Num 4), (Num 2), (Num 1), (Num 0). repeat split; vm_compute; reflexivity. Qed.
Print Assumptions C38_convtransp_refuted.

(** C43. *)
Theorem C43_round : forall i f x, 0 <= i + f ->
  let M := 2 ^ (i + f) - 1 in
  exists k, (round_fxp i f x == inject_Z k / Qpower 2 f)%Q /\ - M <= k <= M /\
    ((Qabs (x * Qpower 2 f) <= inject_Z M)%Q -> rounds_to (x * Qpower 2 f) k) /\
    ((inject_Z M <= x * Qpower 2 f)%Q -> k = M) /\
    ((x * Qpower 2 f <= inject_Z (- M))%Q -> k = - M).
Proof. exact round_spec. Qed.
Print Assumptions C43_round.
Theorem C43_round_laws : forall i f, 0 <= i + f ->
  (forall x, (round_fxp i f (round_fxp i f x) == round_fxp i f x)%Q) /\
  (forall x y, (x <= y)%Q -> (round_fxp i f x <= round_fxp i f y)%Q) /\
  (forall x, (round_fxp i f (- x) == - round_fxp i f x)%Q).
Proof. exact round_laws. Qed.
Print Assumptions C43_round_laws.
(** The module maps None to None and a tensor element by element; the gradient passes unchanged. *)
Theorem C43_module : forall i f x g,
  round_forward i f None = None /\
  (0 <= i + f -> exists y, round_forward i f (Some x) = Some y /\
     Forall2 (fun a b => exists k, (b == inject_Z k / Qpower 2 f)%Q /\ - (2 ^ (i + f) - 1) <= k <= 2 ^ (i + f) - 1 /\
       ((Qabs (a * Qpower 2 f) <= inject_Z (2 ^ (i + f) - 1))%Q -> rounds_to (a * Qpower 2 f) k)) x y) /\
  round_backward g = g.
Proof. exact round_module. Qed.
Print Assumptions C43_module.
Example C43_ex : (round_fxp 3 4 (5 # 32) == 2 # 16)%Q /\ (round_fxp 3 4 (-9) == - (127 # 16))%Q /\ (round_fxp 0 7 1 == 127 # 128)%Q.
Proof. repeat split; vm_compute; reflexivity. Qed.

(** C44: the scaled scale lies in (2^(w-1),2^w] (ceil), [2^w,2^(w+1)) (floor), (2^(w-1/2),2^(w+1/2)) (round). *)
Theorem C44_rshift : forall input weight widthi widthw r qi qw, input <> [] -> weight <> [] ->
  let si := quantile_scale input qi in
  let sw := quantile_scale weight qw in
  ((si == 0 \/ sw == 0)%Q -> rshift_offset input weight widthi widthw r qi qw = Ok None) /\
  (~ (si == 0)%Q -> ~ (sw == 0)%Q -> exists ri rw ro, rshift_offset input weight widthi widthw r qi qw = Ok (Some (ri, rw, ro)) /\
     match r with
     | RCeil => above_and_upto widthi (si / Qpower 2 ri) /\ above_and_upto widthw (sw / Qpower 2 rw)
     | RFloor => from_and_below widthi (si / Qpower 2 ri) /\ from_and_below widthw (sw / Qpower 2 rw)
     | RRound => around widthi (si / Qpower 2 ri) /\ around widthw (sw / Qpower 2 rw)
     end /\
     ro = Z.max widthi widthw - (ri + widthi) - (rw + widthw)).
Proof.
  intros input weight widthi widthw r qi qw Hi Hw. destruct (rshift_offset_spec input weight widthi widthw r qi qw Hi Hw) as [H1 H2].
  split; [exact H1|]. intros Z1 Z2. destruct (H2 Z1 Z2) as (ri & rw & ro & E & N1 & N2 & E3). exists ri, rw, ro.
  split; [exact E|]. split; [|exact E3]. destruct r; split; assumption.
Qed.
Print Assumptions C44_rshift.
(** The scale is the maximum magnitude for quantile 1, and never exceeds it. *)
Theorem C44_scale : forall x q mx, is_max_abs x mx ->
  ((q == 1)%Q -> (quantile_scale x q == mx)%Q) /\
  ((0 <= q)%Q -> (q <= 1)%Q -> (0 <= quantile_scale x q /\ quantile_scale x q <= mx)%Q).
Proof. exact quantile_scale_spec. Qed.
Print Assumptions C44_scale.
Example C44_ex : let x := [1 # 2; (-3) # 4; 1 # 8]%Q in
  rshift_offset x x 7 7 RRound 1 1 = Ok (Some (-7, -7, 7)) /\ rshift_offset x x 7 5 RFloor 1 (1 # 2) = Ok (Some (-8, -7, 10)) /\
  rshift_offset [0; 0]%Q x 7 7 RRound 1 1 = Ok None.
Proof. repeat split; vm_compute; reflexivity. Qed.

(** C45. *)
Theorem C45_clip : forall m n w, (m = Bipolar -> (1 <= n)%nat) ->
  exists w', clipping m Clip n w = Ok (Some w') /\
    Forall2 (fun x y => on_grid m n y /\ (Qabs (y - mode_clamp m x) <= grid_step m n / 2)%Q) w w'.
Proof. exact clip_spec. Qed.
Print Assumptions C45_clip.
Theorem C45_norm : forall m n w lo hi, (m = Bipolar -> (1 <= n)%nat) -> extremes w lo hi ->
  ((lo == hi)%Q -> clipping m Norm n w = Ok None) /\
  ((lo < hi)%Q -> exists w', clipping m Norm n w = Ok (Some w') /\
     Forall2 (fun x y => on_grid m n y /\
       (Qabs (y - mode_affine m ((x - lo) / (hi - lo))) <= grid_step m n / 2)%Q /\
       ((x == lo)%Q -> (y == mode_affine m 0)%Q) /\ ((x == hi)%Q -> (y == mode_affine m 1)%Q)) w w').
Proof. exact norm_spec. Qed.
Print Assumptions C45_norm.
Theorem C45_idempotent : forall m n meth w w', (m = Bipolar -> (1 <= n)%nat) -> clipping m meth n w = Ok (Some w') ->
  exists w'', clipping m Clip n w' = Ok (Some w'') /\ Forall2 Qeq w' w''.
Proof. exact clip_idempotent. Qed.
Print Assumptions C45_idempotent.
(** One call: normalise iff frequency <= 1, whatever the constructor's method; the weight first, then the bias;
    an attribute of None raises, and the frequency then stays. *)
Theorem C45_call : forall c w b c' w' b' e,
  clip_call c {| m_weight := w; m_bias := b |} = (c', {| m_weight := w'; m_bias := b' |}, e) <->
  exists meth ew eb,
    (cl_freq c <= 1 -> meth = Norm) /\ (1 < cl_freq c -> meth = Clip) /\
    attr_after (cl_mode c) meth (cl_bits c) w w' ew /\
    (ew = None -> attr_after (cl_mode c) meth (cl_bits c) b b' eb /\ e = eb) /\
    (ew <> None -> b' = b /\ e = ew) /\
    c' = {| cl_freq := cl_freq c + (if e then 0 else 1); cl_mode := cl_mode c; cl_method := meth; cl_bits := cl_bits c |}.
Proof. exact clip_call_spec. Qed.
Print Assumptions C45_call.
Theorem C45_method_ignored : forall f m n meth1 meth2 mds,
  let c1 := {| cl_freq := f; cl_mode := m; cl_method := meth1; cl_bits := n |} in
  let c2 := {| cl_freq := f; cl_mode := m; cl_method := meth2; cl_bits := n |} in
  snd (clip_calls c1 mds) = snd (clip_calls c2 mds) /\
  cl_freq (fst (clip_calls c1 mds)) = f + zlen (filter (fun o => match snd o with None => true | _ => false end) (snd (clip_calls c1 mds))).
Proof. exact clip_method_ignored. Qed.
Print Assumptions C45_method_ignored.
(** A layer without bias: however often the (caught) call is repeated, it raises, and the clipper never leaves normalisation. *)
Theorem C45_bias_none : forall f m n meth w k, f <= 1 -> (m = "unipolar" \/ m = "bipolar") -> w <> [] ->
  let c := {| cl_freq := f; cl_mode := m; cl_method := meth; cl_bits := n |} in
  let md := {| m_weight := Tensor (Some w); m_bias := IsNone |} in
  Forall (fun o => snd o = Some AttributeError) (snd (clip_calls c (repeat md k))) /\
  cl_freq (fst (clip_calls c (repeat md k))) = f /\
  Forall (fun o => exists r, m_weight (fst o) = Tensor r /\
     (m = "unipolar" -> clipping Unipolar Norm n w = Ok r) /\ (m = "bipolar" -> clipping Bipolar Norm n w = Ok r)) (snd (clip_calls c (repeat md k))).
Proof. exact clip_bias_none. Qed.
Print Assumptions C45_bias_none.
Example C45_ex : exists w', clipping Bipolar Norm 3 [1 # 3; 2; 5 # 4]%Q = Ok (Some w') /\
  Forall2 Qeq w' [-(1); 1; 0]%Q /\ extremes [1 # 3; 2; 5 # 4]%Q (1 # 3) 2.
Proof.
  eexists. split; [vm_compute; reflexivity|]. split; [repeat constructor; reflexivity|].
  split; [left; reflexivity|]. split; [right; left; reflexivity|]. repeat constructor; discriminate.
Qed.
Example C45_ex_bias : let c := {| cl_freq := 1; cl_mode := "unipolar"; cl_method := Clip; cl_bits := 2 |} in
  let md b := {| m_weight := Tensor (Some [3; 1; 2]%Q); m_bias := b |} in
  (exists w, clip_call c (md IsNone) = ({| cl_freq := 1; cl_mode := "unipolar"; cl_method := Norm; cl_bits := 2 |},
     {| m_weight := Tensor (Some w); m_bias := IsNone |}, Some AttributeError) /\ Forall2 Qeq w [1; 0; 1 # 2]%Q) /\
  cl_freq (fst (fst (clip_call c (md Missing)))) = 2 /\
  snd (clip_call {| cl_freq := 1; cl_mode := "Bipolar"; cl_method := Clip; cl_bits := 2 |} (md Missing)) = Some TypeError.
Proof.
  cbn zeta. split; [|split; vm_compute; reflexivity]. eexists. split; [vm_compute; reflexivity|]. repeat constructor.
Qed.

(** C46: the draws are given row by row. *)
Theorem C46_truncated_normal : forall mean std n draws, draws <> [] -> Forall (fun d => length d = n) draws ->
  let ok := in_two_sigma mean std in
  match truncated_normal mean std draws with
  | Some (passed, t, used) =>
      hd_error draws = Some passed /\ length t = n /\ (1 <= used <= length draws)%nat /\
      (forall i, (i < n)%nat -> ok (nth i t 0%Q) = true /\ find ok (column i (firstn used draws)) = Some (nth i t 0%Q)) /\
      (used = 1%nat \/ exists i, (i < n)%nat /\ find ok (column i (firstn (used - 1) draws)) = None)
  | None => exists i, (i < n)%nat /\ find ok (column i draws) = None
  end.
Proof. exact truncated_normal_spec. Qed.
Print Assumptions C46_truncated_normal.
Example C46_ex : truncated_normal 0 1 [[3; 1; -(5)]; [0; 7; 4]; [9; 9; 2]; [1; 1; 1]]%Q = Some ([3; 1; -(5)], [0; 1; 2], 3%nat)%Q.
Proof. vm_compute. reflexivity. Qed.
