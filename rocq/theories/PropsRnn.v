(** Property C51: HardMGUCell and HardMGUCellFXP of /repo/kernel/rnn.py. *)
Require Import Verif.BaseLemmas Verif.HubModel Verif.RnnModel Verif.HubProof Verif.RnnProof.
Open Scope Z_scope.

(** C51. One call: the gates are the reference gates, every attribute is in the unary range, and the result is the convex
    combination of the candidate and the old state (the last hardtanh never clips). *)
Theorem C51_values : forall B H I p input hx, mgu_par_ok H I p -> qshape B I input ->
  (match hx with Some h => qshape B H h | None => True end) ->
  (forall b o, (b < B)%nat -> (o < H)%nat -> in_unit (state_entry hx b o)) ->
  let v := hardmgu_forward H p input hx in
  qshape B H (mv_hy v) /\ forall b o, (b < B)%nat -> (o < H)%nat ->
  let wf := qentry (mg_wf p) in let wn := qentry (mg_wn p) in let bf := bias_entry (mg_bf p) in let bn := bias_entry (mg_bn p) in
  let h := state_entry hx b in let x := qentry input b in
  (qentry (mv_fg v) b o == mgu_forget (fun q => q) H I wf bf h x o /\ 0 <= qentry (mv_fg v) b o <= 1 /\
   qentry (mv_ng v) b o == mgu_new (fun q => q) H I wf wn bf bn h x o /\ in_unit (qentry (mv_ng v) b o) /\
   in_unit (qentry (mv_fg_in v) b o) /\ in_unit (qentry (mv_fg_hx v) b o) /\ in_unit (qentry (mv_fg_ng v) b o) /\ in_unit (qentry (mv_fg_ng_inv v) b o) /\
   qentry (mv_hy v) b o == mgu_next H I wf wn bf bn h x o /\ in_unit (qentry (mv_hy v) b o))%Q.
Proof. exact mgu_values. Qed.
Print Assumptions C51_values.
(** Any number of calls, from any state in [-1,1] or from no state. *)
Theorem C51_sequence : forall B H I p hx inputs, mgu_par_ok H I p -> unit_state B H hx -> Forall (qshape B I) inputs ->
  let vs := outs (cell_step (hardmgu_forward H p)) hx inputs in
  forall t, (t < length inputs)%nat -> exists v, nth_error vs t = Some v /\ qshape B H (mv_hy v) /\
    forall b o, (b < B)%nat -> (o < H)%nat ->
    in_unit (qentry (mv_hy v) b o) /\
    (qentry (mv_hy v) b o ==
     mgu_after (mgu_next H I (qentry (mg_wf p)) (qentry (mg_wn p)) (bias_entry (mg_bf p)) (bias_entry (mg_bn p)))
       (state_entry hx b) (map (fun x => qentry x b) (firstn (S t) inputs)) o)%Q.
Proof. exact mgu_sequence. Qed.
Print Assumptions C51_sequence.
(** The bound does not depend on the gate functions (hard=False). *)
Theorem C51_bounded_any : forall sg th B H I p input hx, mgu_par_ok H I p -> qshape B I input ->
  (match hx with Some h => qshape B H h | None => True end) ->
  forall b o, (b < B)%nat -> (o < H)%nat -> in_unit (qentry (mv_hy (mgu_forward sg th H p input hx)) b o).
Proof. exact mgu_bounded_any. Qed.
Print Assumptions C51_bounded_any.
(** The fixed point cell: the same, on the grid of 2^-fracwidth, within one grid step of the convex combination. *)
Theorem C51_fxp_values : forall B H I i f p input hx, 0 <= i -> 0 <= f -> mgu_par_ok H I p -> qshape B I input ->
  (match hx with Some h => qshape B H h | None => True end) ->
  (forall b o, (b < B)%nat -> (o < H)%nat -> in_unit (state_entry hx b o)) ->
  let v := hardmgufxp_forward i f H p input hx in let q := round_fxp i f in
  qshape B H (mv_hy v) /\ forall b o, (b < B)%nat -> (o < H)%nat ->
  let wf := qentry (mg_wf p) in let wn := qentry (mg_wn p) in let bf := bias_entry (mg_bf p) in let bn := bias_entry (mg_bn p) in
  let h := state_entry hx b in let x := qentry input b in
  let g := mgu_forget q H I wf bf h x o in let n := mgu_new q H I wf wn bf bn h x o in
  (q (qentry (mv_fg v) b o) == g /\ 0 <= qentry (mv_fg v) b o <= 1 /\
   qentry (mv_ng v) b o == n /\ in_unit (qentry (mv_ng v) b o) /\
   in_unit (qentry (mv_fg_in v) b o) /\ in_unit (qentry (mv_fg_hx v) b o) /\ in_unit (qentry (mv_fg_ng v) b o) /\ in_unit (qentry (mv_fg_ng_inv v) b o) /\
   qentry (mv_hy v) b o == mgu_next_fxp q H I wf wn bf bn h x o /\ in_unit (qentry (mv_hy v) b o) /\ dyadic f (qentry (mv_hy v) b o) /\
   Qabs (qentry (mv_hy v) b o - ((1 - g) * n + g * q (h o))) <= 1 / Qpower 2 f)%Q.
Proof. exact mgufxp_values. Qed.
Print Assumptions C51_fxp_values.
Theorem C51_fxp_sequence : forall B H I i f p hx inputs, 0 <= i -> 0 <= f -> mgu_par_ok H I p -> unit_state B H hx -> Forall (qshape B I) inputs ->
  let vs := outs (cell_step (hardmgufxp_forward i f H p)) hx inputs in
  forall t, (t < length inputs)%nat -> exists v, nth_error vs t = Some v /\ qshape B H (mv_hy v) /\
    forall b o, (b < B)%nat -> (o < H)%nat ->
    in_unit (qentry (mv_hy v) b o) /\ dyadic f (qentry (mv_hy v) b o) /\
    (qentry (mv_hy v) b o ==
     mgu_after (mgu_next_fxp (fx_quant (2 ^ (i + f)) (- f)) H I (qentry (mg_wf p)) (qentry (mg_wn p)) (bias_entry (mg_bf p)) (bias_entry (mg_bn p)))
       (state_entry hx b) (map (fun x => qentry x b) (firstn (S t) inputs)) o)%Q.
Proof. exact mgufxp_sequence. Qed.
Print Assumptions C51_fxp_sequence.
Example C51_ex :
  let run fwd := map (fun v => map (map Qred) (mv_hy v)) (outs (cell_step fwd) None [[[1 # 2]]; [[-1]]])%Q in
  let p3 := {| mg_wf := [[1 # 2; 1 # 4; 1]; [1; 3; 0]]%Q; mg_bf := Some [0; 1 # 4]%Q; mg_wn := [[-1; 2; 1]; [1 # 8; -1; 1 # 3]]%Q; mg_bn := None |} in
  mgu_par_ok 2 1 p3 /\ unit_state 1 2 None /\ Forall (qshape 1 1) [[[1 # 2]]; [[-1]]]%Q /\
  run (hardmgu_forward 2 p3) = [[[1 # 8; 1 # 16]]; [[-113627 # 131072; -27239 # 786432]]]%Q /\
  run (hardmgufxp_forward 3 4 2 p3) = [[[1 # 8; 1 # 16]]; [[-7 # 8; -1 # 16]]]%Q.
Proof.
  cbn zeta. split; [|split; [exact Logic.I|split]].
  - repeat split; repeat constructor.
  - repeat constructor.
  - split; vm_compute; reflexivity.
Qed.
