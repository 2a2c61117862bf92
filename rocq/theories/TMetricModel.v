(** /repo/metric/metric.py on tensors (shapes and broadcasting of TensorModel), statement by statement. A monitoring call returns the new
    state and the exception it raised, if any; the state then holds what had been assigned before. Sources are float tensors; nan is [None]. *)
Require Export Verif.Base Verif.TensorModel Verif.MetricModel.
Open Scope Z_scope.

(** ** Correlation, metric.py:11-16 *)
Record corrt : Type := { ct_d : tensor Z; ct_c : tensor Z; ct_b : tensor Z; ct_a : tensor Z; ct_len : tensor Z; ct_in1d : tensor Z }.
Definition corrt_init : corrt :=
  {| ct_d := tone 0; ct_c := tone 0; ct_b := tone 0; ct_a := tone 0; ct_len := tone 0; ct_in1d := tone 0 |}.
(** metric.py:26-30: four in-place additions of products; the first that raises leaves the rest undone. *)
Definition corrt_count (s : corrt) (i10 i11 i20 i21 : tensor Z) : corrt * option pyerr :=
  match bind (tmap2 Z.mul i10 i20) (tmap2_ Z.add (ct_d s)) with
  | Err e => (s, Some e)
  | Ok d =>
      let s := {| ct_d := d; ct_c := ct_c s; ct_b := ct_b s; ct_a := ct_a s; ct_len := ct_len s; ct_in1d := ct_in1d s |} in
      match bind (tmap2 Z.mul i10 i21) (tmap2_ Z.add (ct_c s)) with
      | Err e => (s, Some e)
      | Ok c =>
          let s := {| ct_d := d; ct_c := c; ct_b := ct_b s; ct_a := ct_a s; ct_len := ct_len s; ct_in1d := ct_in1d s |} in
          match bind (tmap2 Z.mul i11 i20) (tmap2_ Z.add (ct_b s)) with
          | Err e => (s, Some e)
          | Ok b =>
              let s := {| ct_d := d; ct_c := c; ct_b := b; ct_a := ct_a s; ct_len := ct_len s; ct_in1d := ct_in1d s |} in
              match bind (tmap2 Z.mul i11 i21) (tmap2_ Z.add (ct_a s)) with
              | Err e => (s, Some e)
              | Ok a => ({| ct_d := d; ct_c := c; ct_b := b; ct_a := a; ct_len := tmap (fun n => n + 1) (ct_len s); ct_in1d := ct_in1d s |}, None)
              end
          end
      end
  end.
(** metric.py:18-30; the delayed input is replaced before anything can raise (:19-21). *)
Definition corrt_monitor (s : corrt) (inp : tensor Z * option (tensor Z)) : corrt * option pyerr :=
  let '(in_1, arg2) := inp in
  let in_2 := match arg2 with None => ct_in1d s | Some v => v end in
  let s := match arg2 with
           | None => {| ct_d := ct_d s; ct_c := ct_c s; ct_b := ct_b s; ct_a := ct_a s; ct_len := ct_len s; ct_in1d := in_1 |}
           | Some _ => s
           end in
  let in_1_is_0 := tmap (fun x => b2z (x =? 0)) in_1 in
  let in_1_is_1 := tmap (fun x => 1 - x) in_1_is_0 in
  let in_2_is_0 := tmap (fun x => b2z (x =? 0)) in_2 in
  let in_2_is_1 := tmap (fun x => 1 - x) in_2_is_0 in
  corrt_count s in_1_is_0 in_1_is_1 in_2_is_0 in_2_is_1.
(** metric.py:32-53. *)
Definition corrt_forward (s : corrt) : result (tensor Q) :=
  do ad <- tmap2 Z.mul (ct_a s) (ct_d s);
  do bc <- tmap2 Z.mul (ct_b s) (ct_c s);
  do ad_minus_bc <- tmap2 Z.sub ad bc;
  let ad_gt_bc := tmap (fun x => b2z (x >? 0)) ad_minus_bc in
  let ad_le_bc := tmap (fun x => 1 - x) ad_gt_bc in
  do a_plus_b <- tmap2 Z.add (ct_a s) (ct_b s);
  do a_plus_c <- tmap2 Z.add (ct_a s) (ct_c s);
  do a_minus_d <- tmap2 Z.sub (ct_a s) (ct_d s);
  let all_0 := tlike 0 (ct_a s) in
  let all_1 := tlike 1 (ct_a s) in
  do m <- tmap2 Z.min a_plus_b a_plus_c;
  do m1 <- tmap2_ Z.mul m (ct_len s);
  do p <- tmap2 Z.mul a_plus_b a_plus_c;
  do m2 <- tmap2_ Z.sub m1 p;
  do den_gt <- tmap2 Z.max m2 all_1;
  do corr_gt <- tmap2 (fun x y => (inject_Z x / inject_Z y)%Q) ad_minus_bc den_gt;
  do x <- tmap2 Z.max a_minus_d all_0;
  do x1 <- tmap2_ Z.mul x (ct_len s);
  do y <- tmap2 Z.sub p x1;
  do den_le <- tmap2 Z.max y all_1;
  do corr_le <- tmap2 (fun x y => (inject_Z x / inject_Z y)%Q) ad_minus_bc den_le;
  do u <- tmap2 (fun x y => (inject_Z x * y)%Q) ad_gt_bc corr_gt;
  do v <- tmap2 (fun x y => (inject_Z x * y)%Q) ad_le_bc corr_le;
  tmap2 Qplus u v.

(** ** ProgError, metric.py:77-85: [pt_source] scaled and clamped. *)
Record pet : Type := { pt_cycle : tensor Z; pt_one : tensor Z }.
Definition pet_init : pet := {| pt_cycle := tone 0; pt_one := tone 0 |}.
Definition pet_source (scale : Q) (source : tensor Q) : tensor Q := tmap (fun x => qclamp (-1) 1 (x / scale)%Q) source.
(** metric.py:87-89. *)
Definition pet_monitor (s : pet) (in_1 : tensor Z) : pet * option pyerr :=
  match tmap2 Z.add (pt_one s) in_1 with
  | Err e => (s, Some e)
  | Ok one => ({| pt_cycle := tmap (fun n => n + 1) (pt_cycle s); pt_one := one |}, None)
  end.
(** metric.py:91-96: pp, which is assigned even if the subtraction raises, and pe. *)
Definition pet_forward (m : mode) (src : tensor Q) (s : pet) : result (tensor (option Q) * result (tensor (option Q))) :=
  do pp0 <- tmap2 (fun n c => if c =? 0 then None else Some (inject_Z n / inject_Z c)%Q) (pt_one s) (pt_cycle s);
  let pp := match m with Bipolar => tmap (option_map (fun x => (x * 2 - 1)%Q)) pp0 | Unipolar => pp0 end in
  Ok (pp, tmap2 (fun x y => option_map (fun v => (v - y)%Q) x) pp src).

(** ** Stability, metric.py:123-129 *)
Record stabt : Type := { st_pe : pet; st_cts : tensor Z }.
Definition stabt_init (source : tensor Q) : stabt := {| st_pe := pet_init; st_cts := tlike 0 source |}.
(** metric.py:131-135. *)
Definition stabt_monitor (m : mode) (scale : Q) (source : tensor Q) (threshold : Q) (s : stabt) (in_1 : tensor Z) : stabt * option pyerr :=
  let '(p, err) := pet_monitor (st_pe s) in_1 in
  let s := {| st_pe := p; st_cts := st_cts s |} in
  match err with
  | Some e => (s, Some e)
  | None =>
      match (do f <- pet_forward m (pet_source scale source) p;
             do pe <- snd f;
             let gt := tmap (fun x => match x with Some v => b2z (qgt (Qabs v) threshold) | None => 0 end) pe in
             do left <- tmap2 Z.sub (pt_cycle p) (st_cts s);
             do step <- tmap2_ Z.mul gt left;
             tmap2_ Z.add (st_cts s) step) with
      | Err e => (s, Some e)
      | Ok cts => ({| st_pe := p; st_cts := cts |}, None)
      end
  end.
(** metric.py:137-139: clamp(1, cycle): with cycle < 1 everything is set to cycle (torch.clamp with min > max). *)
Definition stabt_forward (s : stabt) : result (tensor (option Q)) :=
  let cycle := elt (pt_cycle (st_pe s)) [0%nat] in
  do q <- tmap2 (fun n c => if c =? 0 then None else Some (inject_Z n / inject_Z c)%Q)
                (tmap (fun n => Z.min cycle (Z.max 1 n)) (st_cts s)) (pt_cycle (st_pe s));
  Ok (tmap (option_map (fun x => (1 - x)%Q)) q).
