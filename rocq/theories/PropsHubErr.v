(** C72: the binary-interfaced linear layers against the real affine layer. *)
From Coq Require Import String.
Require Import Verif.BaseLemmas Verif.Spec Verif.HubErrSpec Verif.GenProof Verif.LinearModel Verif.LinearProof Verif.HubModel Verif.HubProof Verif.BinConvModel Verif.NewModel Verif.NewSpec Verif.NewProof Verif.HubErrProof Verif.PropsHub.
Open Scope string_scope.
Open Scope list_scope.
Open Scope Z_scope.

(** HUBLinear from its constructor to its output, any rounding and early termination: the table costs w steps of the product per input,
    the quantisation [hub_slack] steps per operand. *)
Theorem C72_hublinear_error : forall exti extw w ni no bias we be wi bi rngi rngw rnd qi qw cyc l ki kw,
  hublin_new exti extw ni no bias we be wi bi (S w) (S w) rngi rngw qi qw (Some cyc) rnd true = Ok l ->
  mat no ni wi /\ vec no bi -> (1 <= w <= 30)%nat -> ext_ok exti w -> ext_ok extw w ->
  rng_parse rngi = Ok ki -> rng_parse rngw = Ok kw -> ki <> KLfsr -> kw <> KLfsr -> (if is_tc kw then ki else kw) = KSobol -> 1 <= cyc ->
  (qi == 1)%Q -> (qw == 1)%Q -> forall B input out, qshape B ni input -> hublin_forward l input = Ok (Some out) ->
  exists ri rw ro, rshift_offset (concat input) (concat (hl_weight l)) (Z.of_nat w) (Z.of_nat w) (hl_round l) qi qw = Ok (Some (ri, rw, ro)) /\
  qshape B no out /\
  forall b o, (b < B)%nat -> (o < no)%nat ->
  let dx := (hub_slack (hl_round l) (Z.min cyc (p2 w)) w * Qpower 2 ri)%Q in
  let dw := (hub_slack (hl_round l) (Z.min cyc (p2 w)) w * Qpower 2 rw)%Q in
  (Qabs (qentry out b o - (dotq ni (qentry input b) (qentry (hl_weight l) o) + bias_entry (hl_bias l) o)) <=
   inject_Z (Z.of_nat ni * Z.of_nat w) * Qpower 2 (Z.of_nat w + ri + rw) +
   qsum (map (fun i => dx * Qabs (qentry (hl_weight l) o i) + (Qabs (qentry input b i) + dx) * dw) (seq 0 ni)))%Q.
Proof. exact @hub_error. Qed.
Print Assumptions C72_hublinear_error.
(** There is an output whenever neither operand is all zero (log2 of a zero scale is minus infinity otherwise). *)
Theorem C72_hublinear_total : forall l input X W, is_max_abs (concat input) X -> is_max_abs (concat (hl_weight l)) W -> (hl_qi l == 1)%Q -> (hl_qw l == 1)%Q ->
  ((0 < X)%Q /\ (0 < W)%Q -> exists out, hublin_forward l input = Ok (Some out)) /\
  ((X == 0)%Q \/ (W == 0)%Q -> hublin_forward l input = Ok None).
Proof. exact hub_total. Qed.
Print Assumptions C72_hublinear_total.
(** Rounding up: against the largest input X and the largest weight W, the relative error is 4(w+2)/2^w per input. *)
Theorem C72_hublinear_ceil : forall exti extw w ni no bias we be wi bi rngi rngw rnd qi qw cyc l ki kw,
  hublin_new exti extw ni no bias we be wi bi (S w) (S w) rngi rngw qi qw (Some cyc) rnd true = Ok l ->
  mat no ni wi /\ vec no bi -> (1 <= w <= 30)%nat -> ext_ok exti w -> ext_ok extw w ->
  rng_parse rngi = Ok ki -> rng_parse rngw = Ok kw -> ki <> KLfsr -> kw <> KLfsr -> (if is_tc kw then ki else kw) = KSobol -> 1 <= cyc ->
  (qi == 1)%Q -> (qw == 1)%Q -> hl_round l = RCeil -> p2 w <= cyc ->
  forall B input out X W, qshape B ni input -> is_max_abs (concat input) X -> is_max_abs (concat (hl_weight l)) W ->
  hublin_forward l input = Ok (Some out) ->
  qshape B no out /\
  forall b o, (b < B)%nat -> (o < no)%nat ->
  (Qabs (qentry out b o - (dotq ni (qentry input b) (qentry (hl_weight l) o) + bias_entry (hl_bias l) o)) <=
   inject_Z (Z.of_nat ni * (4 * (Z.of_nat w + 2))) * X * W / inject_Z (p2 w))%Q.
Proof. exact @hub_converges. Qed.
Print Assumptions C72_hublinear_ceil.
(** The default rounding does not converge: for the product 7/5 * 7/5 = 49/25 every width and every cycle count answer less than 1. *)
Theorem C72_hublinear_round_clips : forall exti extw w bias rngi rngw rnd cyc l ki kw,
  hublin_new exti extw 1 1 bias (Some [[7 # 5]]%Q) None [] [0%Q] (S w) (S w) rngi rngw 1 1 (Some cyc) rnd true = Ok l -> hl_round l = RRound ->
  (1 <= w <= 30)%nat -> ext_ok exti w -> ext_ok extw w -> rng_parse rngi = Ok ki -> rng_parse rngw = Ok kw ->
  ki <> KLfsr -> kw <> KLfsr -> is_tc ki && is_tc kw = false -> 1 <= cyc ->
  exists v, hublin_forward l [[7 # 5]]%Q = Ok (Some [[v]]) /\ (v < 1)%Q.
Proof. exact @hub_round_clips. Qed.
Print Assumptions C72_hublinear_round_clips.
(** FXPLinear converges with every rounding. *)
Theorem C72_fxplinear : forall widthi widthw r qi qw B n no input weight bias out X W,
  (1 <= widthi)%nat -> (1 <= widthw)%nat -> (qi == 1)%Q -> (qw == 1)%Q ->
  qshape B n input -> qshape no n weight -> bias_ok no bias -> is_max_abs (concat input) X -> is_max_abs (concat weight) W ->
  fxp_linear widthi widthw r qi qw input weight bias = Ok (Some out) ->
  qshape B no out /\ forall b o, (b < B)%nat -> (o < no)%nat ->
    let ei := Qpower 2 (1 - Z.of_nat widthi) in let ew := Qpower 2 (1 - Z.of_nat widthw) in
    (Qabs (qentry out b o - (dotq n (qentry input b) (qentry weight o) + bias_entry bias o)) <=
     inject_Z (Z.of_nat n) * X * W * (ei + (1 + ei) * ew))%Q.
Proof. exact @fxp_converges. Qed.
Print Assumptions C72_fxplinear.
(** TLUTLinear, no early termination: converges when rounding up, and always between floating-point formats. *)
Theorem C72_tlutlinear : forall temporal formati formatw widthi widthw widtht qi qw rnd c B n no input weight bias out X W ei ew,
  tlut_new temporal formati formatw widthi widthw widtht qi qw None rnd true = Ok c ->
  (named rnd ["ceil"] \/ ~ named formati ["fxp"] /\ ~ named formatw ["fxp"]) ->
  (1 <= widthi)%nat -> (1 <= widthw)%nat -> (1 <= widtht)%nat -> (qi == 1)%Q -> (qw == 1)%Q ->
  qshape B n input -> qshape no n weight -> bias_ok no bias -> is_max_abs (concat input) X -> is_max_abs (concat weight) W ->
  tlut_apply c input weight bias = Ok (Some out) -> tlut_steps temporal formati formatw widthi widthw ei ew ->
  forall b o, (b < B)%nat -> (o < no)%nat ->
    (Qabs (qentry out b o - (dotq n (qentry input b) (qentry weight o) + bias_entry bias o)) <=
     inject_Z (Z.of_nat n) * X * W * (ei + (1 + ei) * ew))%Q.
Proof. exact @tlut_converges. Qed.
Print Assumptions C72_tlutlinear.
Theorem C72_tlutlinear_round_clips : forall temporal formati formatw widthi widthw widtht rnd c,
  tlut_new temporal formati formatw widthi widthw widtht 1 1 None rnd true = Ok c ->
  named formati ["fxp"] -> named formatw ["fxp"] -> named rnd ["round"] -> (1 <= widtht)%nat ->
  exists v, tlut_apply c [[7 # 5]]%Q [[7 # 5]]%Q None = Ok (Some [[v]]) /\ (v < 1)%Q.
Proof. exact @tlut_round_clips. Qed.
Print Assumptions C72_tlutlinear_round_clips.
(** The three layers on the product 7/5 * 7/5 = 1.96: HUB at width 3 (w = 2) with both roundings, fixed point and TLUT at width 8. *)
Example C72_ex :
  (exists l, hublin_new ex_ext ex_ext 1 1 false (Some [[7 # 5]]%Q) None [] [0%Q] 3 3 "tc" "sobol" 1 1 (Some 4) "round" true = Ok l /\
     match hublin_forward l [[7 # 5]]%Q with Ok (Some [[v]]) => Qeq v (1 # 2) | _ => False end) /\
  (exists l, hublin_new ex_ext ex_ext 1 1 false (Some [[7 # 5]]%Q) None [] [0%Q] 3 3 "tc" "sobol" 1 1 (Some 4) "ceil" true = Ok l /\
     match hublin_forward l [[7 # 5]]%Q with Ok (Some [[v]]) => Qeq v 2 | _ => False end) /\
  match fxp_linear 8 8 RRound 1 1 [[7 # 5]]%Q [[7 # 5]]%Q None with Ok (Some [[v]]) => (Qabs (v - (49 # 25)) < 3 # 100)%Q | _ => False end /\
  (exists c, tlut_new "i" "fxp" "fxp" 8 8 4 1 1 None "ceil" true = Ok c /\
     match tlut_apply c [[7 # 5]]%Q [[7 # 5]]%Q None with Ok (Some [[v]]) => (Qabs (v - (49 # 25)) < 4 # 100)%Q | _ => False end) /\
  tlut_steps "i" "fxp" "fxp" 8 8 (Qpower 2 (-6)) (Qpower 2 (-6)) /\ is_max_abs [7 # 5]%Q (7 # 5) /\ hub_slack RCeil 4 2 = 1%Q.
Proof.
  split; [eexists; split; [vm_compute; reflexivity|vm_compute; reflexivity]|].
  split; [eexists; split; [vm_compute; reflexivity|vm_compute; reflexivity]|].
  split; [vm_compute; reflexivity|]. split; [eexists; split; [vm_compute; reflexivity|vm_compute; reflexivity]|].
  split; [left; split; [split; (eexists; split; [left; reflexivity|]); repeat (constructor; [left; reflexivity|]); constructor|split; reflexivity]|].
  split; [split; [exists (7 # 5)%Q; split; [left; reflexivity|reflexivity]|repeat constructor; vm_compute; discriminate]|]. vm_compute. reflexivity.
Qed.
