(** float32 (IEEE binary32) arithmetic of torch and the modules whose state is kept in it: the counters of
    /repo/metric/metric.py and the accumulator of /repo/kernel/add.py. *)
Require Export Verif.Base Verif.UtilsModel Verif.MetricModel Verif.AddModel.
Open Scope Z_scope.

(** The result of a float32 operation whose exact result is q: round to nearest, ties to even, 24 significant bits,
    least exponent -149 (subnormal numbers). Overflow is not modelled: the statements bound |q| far below 2^128. *)
Definition f32 (q : Q) : Q :=
  if Qeq_bool q 0 then 0%Q
  else let e := Z.max (qlog2_floor (Qabs q) - 23) (-149) in (inject_Z (qround (q / qpow2 e)) * qpow2 e)%Q.

(** ** ProgError and Stability with float32 counters *)

(** metric.py:82-83, 87-89: cycle and one_cnt, both float32. *)
Record pe32_st : Type := { pe32_cycle : Q; pe32_one : Q }.
Definition pe32_init : pe32_st := {| pe32_cycle := 0; pe32_one := 0 |}.
Definition pe32_monitor (s : pe32_st) (in_1 : Z) : pe32_st :=
  {| pe32_cycle := f32 (pe32_cycle s + 1)%Q; pe32_one := f32 (pe32_one s + inject_Z in_1)%Q |}.
Definition pe32_monitors (s : pe32_st) (xs : list Z) : pe32_st := fold_left pe32_monitor xs s.

(** metric.py:91-96. [source]: the stored source, already clamp(source/scale, -1, 1) in float32. *)
Definition pe32_forward (m : mode) (source : Q) (s : pe32_st) : option (Q * Q) :=
  if Qeq_bool (pe32_cycle s) 0 then None
  else
    let pp0 := f32 (pe32_one s / pe32_cycle s) in
    let pp := match m with Bipolar => f32 (f32 (pp0 * 2) - 1) | Unipolar => pp0 end in
    Some (pp, f32 (pp - source)).

(** metric.py:131-135, 137-139. *)
Record stab32_st : Type := { sb32_pe : pe32_st; sb32_cts : Q }.
Definition stab32_init : stab32_st := {| sb32_pe := pe32_init; sb32_cts := 0 |}.
Definition stab32_monitor (m : mode) (source threshold : Q) (s : stab32_st) (in_1 : Z) : stab32_st :=
  let p := pe32_monitor (sb32_pe s) in_1 in
  match pe32_forward m source p with
  | None => {| sb32_pe := p; sb32_cts := sb32_cts s |}   (* unreachable: the cycle is at least 1 *)
  | Some (_, pe) =>
      {| sb32_pe := p;
         sb32_cts := f32 (sb32_cts s + f32 (inject_Z (b2z (qgt (Qabs pe) threshold)) * f32 (pe32_cycle p - sb32_cts s)))%Q |}
  end.
Definition stab32_monitors (m : mode) (source threshold : Q) (s : stab32_st) (xs : list Z) : stab32_st :=
  fold_left (stab32_monitor m source threshold) xs s.
Definition stab32_forward (s : stab32_st) : Q :=
  f32 (1 - f32 (qclamp 1 (pe32_cycle (sb32_pe s)) (sb32_cts s) / pe32_cycle (sb32_pe s))).

(** ** Correlation with float32 counters, metric.py:11-53 *)
Record corr32_st : Type := { c32_d : Q; c32_c : Q; c32_b : Q; c32_a : Q; c32_len : Q }.
Definition corr32_init : corr32_st := {| c32_d := 0; c32_c := 0; c32_b := 0; c32_a := 0; c32_len := 0 |}.
(** The call with two arguments. *)
Definition corr32_monitor (s : corr32_st) (inp : Z * Z) : corr32_st :=
  let '(in_1, in_2) := inp in
  let in_1_is_0 := b2z (in_1 =? 0) in
  let in_1_is_1 := 1 - in_1_is_0 in
  let in_2_is_0 := b2z (in_2 =? 0) in
  let in_2_is_1 := 1 - in_2_is_0 in
  {| c32_d := f32 (c32_d s + inject_Z (in_1_is_0 * in_2_is_0));
     c32_c := f32 (c32_c s + inject_Z (in_1_is_0 * in_2_is_1));
     c32_b := f32 (c32_b s + inject_Z (in_1_is_1 * in_2_is_0));
     c32_a := f32 (c32_a s + inject_Z (in_1_is_1 * in_2_is_1));
     c32_len := f32 (c32_len s + 1) |}.
Definition corr32_monitors (s : corr32_st) (h : list (Z * Z)) : corr32_st := fold_left corr32_monitor h s.
Definition corr32_forward (s : corr32_st) : Q :=
  let ad_minus_bc := f32 (f32 (c32_a s * c32_d s) - f32 (c32_b s * c32_c s)) in
  let ad_gt_bc := inject_Z (b2z (qgt ad_minus_bc 0)) in
  let ad_le_bc := f32 (1 - ad_gt_bc) in
  let a_plus_b := f32 (c32_a s + c32_b s) in
  let a_plus_c := f32 (c32_a s + c32_c s) in
  let a_minus_d := f32 (c32_a s - c32_d s) in
  let corr_ad_gt_bc :=
    f32 (ad_minus_bc / qmax (f32 (f32 (qmin a_plus_b a_plus_c * c32_len s) - f32 (a_plus_b * a_plus_c))) 1) in
  let corr_ad_le_bc :=
    f32 (ad_minus_bc / qmax (f32 (f32 (a_plus_b * a_plus_c) - f32 (qmax a_minus_d 0 * c32_len s))) 1) in
  f32 (f32 (ad_gt_bc * corr_ad_gt_bc) + f32 (ad_le_bc * corr_ad_le_bc)).

(** ** FSUAdd with a float32 accumulator, add.py:53-99. The sum of a column of bits is exact (below 2^24 entries); the
    limits of clamp are powers of two. *)
Definition fsuadd32_resolve (c : fsuadd_cfg) (s : fsuadd_st) (size : Z) : fsuadd_st :=
  if fs_first s then
    let e := match fs_entry s with None => size | Some e => e end in
    let sc := f32 (match fa_scale c with None => inject_Z e | Some q => q end) in
    let off := match fa_mode c with
               | Bipolar => f32 (f32 (inject_Z e - sc) / 2)
               | Unipolar => fs_offset s
               end in
    {| fs_entry := Some e; fs_scale := sc; fs_offset := off; fs_acc := fs_acc s; fs_first := false |}
  else s.
Definition acc32_step (lim scale delta acc : Q) : Q * Z :=
  let acc1 := qclamp (- lim) lim (f32 (acc + delta)) in
  let output := b2z (qge acc1 scale) in
  (qclamp (- lim) lim (f32 (acc1 - f32 (inject_Z output * scale))), output).
Definition fsuadd32_step (c : fsuadd_cfg) (s : fsuadd_st) (col : list Z) : fsuadd_st * Z :=
  let s1 := fsuadd32_resolve c s (zlen col) in
  let delta := f32 (inject_Z (zsum col) - fs_offset s1) in
  let '(acc', output) := acc32_step (acc_lim (fa_depth c)) (fs_scale s1) delta (fs_acc s1) in
  ({| fs_entry := fs_entry s1; fs_scale := fs_scale s1; fs_offset := fs_offset s1;
      fs_acc := acc'; fs_first := fs_first s1 |}, output).
