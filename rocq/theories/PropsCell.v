(** Property C85: the recurrent cells over a sequence of inputs; how differences of states and errors of single calls travel. *)
From Coq Require Import String Qpower.
Require Import Verif.BaseLemmas Verif.GenModel Verif.NameSpec Verif.NewSpec Verif.ProgSpec Verif.SatSpec Verif.RnnModel Verif.RnnProof Verif.MguModel Verif.MguProof
  Verif.CellSpec Verif.CellProof.
Open Scope string_scope.
Open Scope list_scope.
Open Scope Z_scope.

(** C85. HardMGUCell on the same inputs from two states: the difference grows by at most cell_gain per call. *)
Theorem C85_state : forall B H I p af an hx hx' inputs d, mgu_par_ok H I p -> (0 <= af)%Q -> rows_within H H (qentry (mg_wf p)) af -> rows_within H H (qentry (mg_wn p)) an ->
  Forall (qshape B I) inputs -> unit_state B H hx -> unit_state B H hx' -> (0 <= d)%Q -> (forall b, (b < B)%nat -> apart H d (state_entry hx b) (state_entry hx' b)) ->
  forall t, (t < List.length inputs)%nat -> exists v v', nth_error (outs (cell_step (hardmgu_forward H p)) hx inputs) t = Some v /\
    nth_error (outs (cell_step (hardmgu_forward H p)) hx' inputs) t = Some v' /\
    forall b, (b < B)%nat -> apart H (Qpower (cell_gain af an) (Z.of_nat (S t)) * d) (qentry (mv_hy v) b) (qentry (mv_hy v') b).
Proof. exact @cell_state. Qed.
Print Assumptions C85_state.
Definition ex_p : mgu_par := {| mg_wf := [[1 # 2; 1 # 4]]%Q; mg_bf := Some [0]%Q; mg_wn := [[-(1 # 2); 1 # 2]]%Q; mg_bn := Some [0]%Q |}.
Example C85_ex : mgu_par_ok 1 1 ex_p /\ rows_within 1 1 (qentry (mg_wf ex_p)) (1 # 2) /\ rows_within 1 1 (qentry (mg_wn ex_p)) (1 # 2) /\ (cell_gain (1 # 2) (1 # 2) == 3 # 2)%Q /\
  (growth (3 # 2) 4 == 65 # 8)%Q.
Proof.
  split; [repeat split; repeat constructor|]. split; [intros [|o] Ho; [vm_compute; discriminate|lia]|]. split; [intros [|o] Ho; [vm_compute; discriminate|lia]|].
  split; vm_compute; reflexivity.
Qed.
(** Differences can grow: no bound with factor 1 holds. *)
Theorem C85_expands_refuted : exists p h h' x, mgu_par_ok 1 1 p /\ in_unit h /\ in_unit h' /\ in_unit x /\
  (Qabs (h - h') < Qabs (qentry (mv_hy (hardmgu_forward 1 p [[x]] (Some [[h]]))) 0 0 - qentry (mv_hy (hardmgu_forward 1 p [[x]] (Some [[h']]))) 0 0))%Q.
Proof.
  exists {| mg_wf := [[1; 0]]%Q; mg_bf := Some [0]%Q; mg_wn := [[-1; 0]]%Q; mg_bn := Some [0]%Q |}, 1%Q, (3 # 4)%Q, 0%Q.
  split; [repeat split; repeat constructor|]. vm_compute. repeat split; discriminate.
Qed.
Print Assumptions C85_expands_refuted.
(** HUBMGUCell, hx = cell(x, hx), against HardMGUCell: every call of the run succeeds, and after t + 1 calls the two differ by at most
    the error of one call (C84) times 1 + gain + ... + gain^t. *)
Theorem C85_hub : forall ext I H bias wf bf wn bn w mn depth wm rn dimr af an B hx inputs,
  lower mn = "bipolar"%string -> named rn ["sobol"%string; "rc"%string] -> (1 <= w <= 30)%nat -> (wm <= 30)%nat ->
  (forall k, (k < 6)%nat -> dirvec_ok 30 (ext_dirvec (ext k) dimr)) -> mgu_args_ok I H bias wf wn bf bn ->
  Forall (Forall (src_ok Bipolar)) wf -> src_opt Bipolar bf -> Forall (Forall (src_ok Bipolar)) wn -> src_opt Bipolar bn ->
  (0 <= af)%Q -> rows_within H H (qentry wf) af -> rows_within H H (qentry wn) an ->
  (1 <= B)%nat -> Forall (fun x => qshape B I x /\ Forall (Forall (src_ok Bipolar)) x) inputs -> unit_state B H hx ->
  let n := inject_Z (Z.of_nat (H + I) + b2z bias) in let q := (grid_step Bipolar w / 2)%Q in let K := (2 * inject_Z (Z.of_nat w))%Q in
  (g_K n w K + p_K n w wm K + h_K n w K + 2 <= Qpower 2 (depth - 2))%Q ->
  let par := {| mg_wf := wf; mg_bf := if bias then bf else None; mg_wn := wn; mg_bn := if bias then bn else None |} in
  exists ys, outputs (run_r (fun hx x => bind (hubmgu ext I H bias (Some wf) bf (Some wn) bn w mn depth wm rn dimr x hx) (fun y => Ok (Some y, y))) hx inputs) = Some ys /\
  List.length ys = List.length inputs /\
  forall t, (t < List.length inputs)%nat -> exists v, nth_error (outs (cell_step (hardmgu_forward H par)) hx inputs) t = Some v /\
    forall b, (b < B)%nat -> apart H ((y_q n w wm q K + 2 * y_K n w wm K / Qpower 2 (Z.of_nat w)) * growth (cell_gain af an) (S t)) (qentry (nth t ys []) b) (qentry (mv_hy v) b).
Proof. exact @hub_sequence. Qed.
Print Assumptions C85_hub.
(** Three calls at 30 bits with a 20 bit window: within 1/10 for the weights above. *)
Example C85_hub_ex : let n := inject_Z (Z.of_nat (1 + 1) + b2z true) in let q := (grid_step Bipolar 30 / 2)%Q in let K := (2 * inject_Z (Z.of_nat 30))%Q in
  ((y_q n 30 20 q K + 2 * y_K n 30 20 K / Qpower 2 (Z.of_nat 30)) * growth (cell_gain (1 # 2) (1 # 2)) 3 < 1 # 10)%Q.
Proof. vm_compute. reflexivity. Qed.
(** HardMGUCellFXP with intwidth at least 1: one call is within fxp_cell of HardMGUCell, when the weights and biases fit the format. *)
Theorem C85_fxp_call : forall B H I i f p Rf Rn input hx, 1 <= i -> 0 <= f -> mgu_par_ok H I p -> par_format i f H I p ->
  rows_within H (H + I) (qentry (mg_wf p)) Rf -> rows_within H (H + I) (qentry (mg_wn p)) Rn -> inputs_unit B I input -> unit_state B H hx ->
  let y := mv_hy (hardmgufxp_forward i f H p input hx) in
  qshape B H y /\ forall b, (b < B)%nat -> apart H (fxp_cell (half_step f) (inject_Z (Z.of_nat (H + I))) Rf Rn) (qentry y b) (qentry (mv_hy (hardmgu_forward H p input hx)) b).
Proof. exact @fxp_error. Qed.
Print Assumptions C85_fxp_call.
(** Over a sequence. *)
Theorem C85_fxp : forall B H I i f p Rf Rn af an hx inputs, 1 <= i -> 0 <= f -> mgu_par_ok H I p -> par_format i f H I p ->
  rows_within H (H + I) (qentry (mg_wf p)) Rf -> rows_within H (H + I) (qentry (mg_wn p)) Rn ->
  (0 <= af)%Q -> rows_within H H (qentry (mg_wf p)) af -> rows_within H H (qentry (mg_wn p)) an ->
  Forall (inputs_unit B I) inputs -> unit_state B H hx ->
  forall t, (t < List.length inputs)%nat -> exists v v', nth_error (outs (cell_step (hardmgufxp_forward i f H p)) hx inputs) t = Some v /\
    nth_error (outs (cell_step (hardmgu_forward H p)) hx inputs) t = Some v' /\
    forall b, (b < B)%nat -> apart H (fxp_cell (half_step f) (inject_Z (Z.of_nat (H + I))) Rf Rn * growth (cell_gain af an) (S t)) (qentry (mv_hy v) b) (qentry (mv_hy v') b).
Proof. exact @fxp_sequence. Qed.
Print Assumptions C85_fxp.
(** The default format (3, 4) with two operands per row, and (3, 12). *)
Example C85_fxp_ex : par_format 3 4 1 1 ex_p /\ (fxp_cell (half_step 4) 2 (3 # 4) 1 < 6 # 10)%Q /\ (fxp_cell (half_step 12) 2 (3 # 4) 1 < 1 # 450)%Q /\
  let run fwd := map (fun v => map (map Qred) (mv_hy v)) (outs (cell_step fwd) (Some [[1 # 2]]) [[[1]]; [[1 # 2]]; [[-1]]])%Q in
  run (hardmgu_forward 1 ex_p) = [[[29 # 64]]; [[2832229 # 8388608]]; [[-2967783670951434611299 # 18889465931478580854784]]]%Q /\ run (hardmgufxp_forward 3 4 1 ex_p) = [[[7 # 16]]; [[3 # 8]]; [[-1 # 8]]]%Q.
Proof.
  split.
  - split.
    + intros o k Ho Hk. destruct o as [|o]; [|lia]. destruct k as [|[|k]]; [| |lia]; split; vm_compute; discriminate.
    + intros o Ho. destruct o as [|o]; [|lia]. split; vm_compute; discriminate.
  - vm_compute. repeat split.
Qed.
