(** Model of /repo/metric/metric.py, one lane, exact arithmetic (float32 counters: Float32Model.v). *)
Require Export Verif.Base.
Open Scope Z_scope.

(** ** Correlation, metric.py:11-16 *)
Record corr_st : Type := { co_d : Z; co_c : Z; co_b : Z; co_a : Z; co_len : Z; co_in1d : Z }.
Definition corr_init : corr_st := {| co_d := 0; co_c := 0; co_b := 0; co_a := 0; co_len := 0; co_in1d := 0 |}.

(** metric.py:18-30; [in_2 = None] is the one-argument call. *)
Definition corr_monitor (s : corr_st) (inp : Z * option Z) : corr_st :=
  let '(in_1, arg2) := inp in
  let in_2 := match arg2 with None => co_in1d s | Some v => v end in
  let in_1_d := match arg2 with None => in_1 | Some _ => co_in1d s end in
  let in_1_is_0 := b2z (in_1 =? 0) in
  let in_1_is_1 := 1 - in_1_is_0 in
  let in_2_is_0 := b2z (in_2 =? 0) in
  let in_2_is_1 := 1 - in_2_is_0 in
  {| co_d := co_d s + in_1_is_0 * in_2_is_0;
     co_c := co_c s + in_1_is_0 * in_2_is_1;
     co_b := co_b s + in_1_is_1 * in_2_is_0;
     co_a := co_a s + in_1_is_1 * in_2_is_1;
     co_len := co_len s + 1;
     co_in1d := in_1_d |}.
Definition corr_monitors (s : corr_st) (h : list (Z * option Z)) : corr_st := fold_left corr_monitor h s.

(** metric.py:32-53. *)
Definition corr_forward (s : corr_st) : Q :=
  let ad_minus_bc := co_a s * co_d s - co_b s * co_c s in
  let ad_gt_bc := b2z (ad_minus_bc >? 0) in
  let ad_le_bc := 1 - ad_gt_bc in
  let a_plus_b := co_a s + co_b s in
  let a_plus_c := co_a s + co_c s in
  let a_minus_d := co_a s - co_d s in
  let corr_ad_gt_bc :=
    (inject_Z ad_minus_bc / inject_Z (Z.max (Z.min a_plus_b a_plus_c * co_len s - a_plus_b * a_plus_c) 1))%Q in
  let corr_ad_le_bc :=
    (inject_Z ad_minus_bc / inject_Z (Z.max (a_plus_b * a_plus_c - Z.max a_minus_d 0 * co_len s) 1))%Q in
  (inject_Z ad_gt_bc * corr_ad_gt_bc + inject_Z ad_le_bc * corr_ad_le_bc)%Q.

(** ** ProgError, metric.py:77-85. The source is stored scaled and clamped. *)
Record pe_st : Type := { pe_cycle : Z; pe_one : Z }.
Definition pe_init : pe_st := {| pe_cycle := 0; pe_one := 0 |}.
Definition pe_source (scale source : Q) : Q := qclamp (-1) 1 (source / scale)%Q.

(** metric.py:87-89. *)
Definition pe_monitor (s : pe_st) (in_1 : Z) : pe_st :=
  {| pe_cycle := pe_cycle s + 1; pe_one := pe_one s + in_1 |}.
Definition pe_monitors (s : pe_st) (xs : list Z) : pe_st := fold_left pe_monitor xs s.

(** metric.py:91-96; [None] when no cycle was monitored (0/0 is nan in torch). *)
Definition pe_forward (m : mode) (scale source : Q) (s : pe_st) : option (Q * Q) :=
  if pe_cycle s =? 0 then None
  else
    let pp0 := (inject_Z (pe_one s) / inject_Z (pe_cycle s))%Q in
    let pp := match m with Bipolar => (pp0 * 2 - 1)%Q | Unipolar => pp0 end in
    Some (pp, (pp - pe_source scale source)%Q).

(** ** Stability, metric.py:123-129 *)
Record stab_st : Type := { sb_pe : pe_st; sb_cts : Z }.
Definition stab_init : stab_st := {| sb_pe := pe_init; sb_cts := 0 |}.

(** metric.py:131-135: after the progressive error of this cycle, cycle_to_stable becomes the current cycle
    if the error exceeds the threshold. *)
Definition stab_monitor (m : mode) (scale source threshold : Q) (s : stab_st) (in_1 : Z) : stab_st :=
  let p := pe_monitor (sb_pe s) in_1 in
  match pe_forward m scale source p with
  | None => {| sb_pe := p; sb_cts := sb_cts s |}   (* unreachable: the cycle is at least 1 *)
  | Some (_, pe) =>
      {| sb_pe := p;
         sb_cts := sb_cts s + b2z (qgt (Qabs pe) threshold) * (pe_cycle p - sb_cts s) |}
  end.
Definition stab_monitors (m : mode) (scale source threshold : Q) (s : stab_st) (xs : list Z) : stab_st :=
  fold_left (stab_monitor m scale source threshold) xs s.

(** metric.py:137-139. *)
Definition stab_forward (s : stab_st) : Q :=
  (1 - inject_Z (zclamp 1 (pe_cycle (sb_pe s)) (sb_cts s)) / inject_Z (pe_cycle (sb_pe s)))%Q.
