(** C78: float32 evaluation of the layers' matrix products and of BinGen. *)
From Coq Require Import String.
Require Import Verif.BaseLemmas Verif.Spec Verif.GenModel Verif.LinearModel Verif.HubModel Verif.Float32Model Verif.Float32Proof Verif.F32LayerModel Verif.F32LayerProof.
Open Scope string_scope.
Open Scope list_scope.
Open Scope Z_scope.

(** Terms that are multiples of 2^-g and whose absolute values add up to at most 2^(24-g) are summed without error, in any order, grouping
    and fusion. *)
Theorem C78_sum : forall g t l, g <= 149 -> Permutation (leaves t) l -> Forall (dyadic g) l ->
  (qsum (map Qabs l) <= Qpower 2 (24 - g))%Q -> (eval32 t == qsum l)%Q.
Proof. exact sum32_exact. Qed.
Print Assumptions C78_sum.

(** The dot products of bits in FSULinearPC and FSUConv2dPC. *)
Theorem C78_bits : forall x w t, bits x -> bits w -> zlen x <= 2 ^ 24 ->
  Permutation (leaves t) (map2 Qmult (map inject_Z x) (map inject_Z w)) -> (eval32 t == inject_Z (dot x w))%Q.
Proof. exact bits32_exact. Qed.
Print Assumptions C78_bits.

(** One output of HUBLinear / HUBConv2d: exact up to the rounding of the addition of the bias. *)
Theorem C78_hub : forall exti extw widthi widthw rngi rngw cyc c ri rw ro x w bias t,
  hub_new exti extw widthi widthw rngi rngw cyc = Ok c -> Forall single x -> Forall single w -> x <> [] -> ro <= 149 ->
  zlen x * 2 ^ (Z.max (Z.of_nat widthi) (Z.of_nat widthw) - 1) <= 2 ^ 24 ->
  Permutation (leaves t) (map2 (hub32_term c ri rw) x w) ->
  exists o, hub_forward c ri rw ro [x] [w] None = [[o]] /\ (out32 t ro bias == match bias with None => o | Some b => f32 (o + b) end)%Q.
Proof. exact hub32_layer. Qed.
Print Assumptions C78_hub.

(** One output of FXPLinear / FXPConv2d. *)
Theorem C78_fxp : forall ri rw ro mi mw x w bias t, 1 <= mi -> 1 <= mw -> Forall single x -> Forall single w ->
  zlen x * ((mi - 1) * (mw - 1)) <= 2 ^ 24 -> ro <= 149 ->
  Permutation (leaves t) (map2 (fxp32_term ri rw mi mw) x w) ->
  exists o, fxp_forward ri rw ro mi mw [x] [w] None = [[o]] /\ (out32 t ro bias == match bias with None => o | Some b => f32 (o + b) end)%Q.
Proof. exact fxp32_exact. Qed.
Print Assumptions C78_fxp.
(** The bound on the number of inputs cannot be raised: at max_abs 256 it allows 258 inputs, and with 259 there are operands whose exact
    result no order of summation gives. *)
Theorem C78_fxp_limit_refuted : 258 * ((256 - 1) * (256 - 1)) <= 2 ^ 24 /\
  exists x w, zlen x = 259 /\ zlen w = 259 /\ Forall single x /\ Forall single w /\
  forall t, Permutation (leaves t) (map2 (fxp32_term 0 0 256 256) x w) ->
  exists o, fxp_forward 0 0 0 256 256 [x] [w] None = [[o]] /\ ~ (out32 t 0 None == o)%Q.
Proof. split; [vm_compute; discriminate|exact fxp32_limit]. Qed.
Print Assumptions C78_fxp_limit_refuted.

(** BinGen: unipolar sources and bipolar sources that are multiples of 2^-23 give the exact integer; other bipolar sources lose at most
    2^-24 of the source, which moves the integer by at most one, and does move it for some source. *)
Theorem C78_bingen_unipolar : forall w s, single s -> bingen32 Unipolar w s = bingen Unipolar w s.
Proof. exact bingen32_unipolar. Qed.
Print Assumptions C78_bingen_unipolar.
Theorem C78_bingen_grid : forall m w s, single s -> (-(1) <= s <= 1)%Q -> dyadic 23 s -> bingen32 m w s = bingen m w s.
Proof. exact bingen32_grid. Qed.
Print Assumptions C78_bingen_grid.
Theorem C78_bingen_error : forall w s, single s -> (-(1) <= s <= 1)%Q ->
  (Qabs (2 * (inject_Z (bingen32 Bipolar w s) / inject_Z (2 ^ Z.of_nat w)) - 1 - s) <= 1 / inject_Z (2 ^ Z.of_nat w) + Qpower 2 (-24))%Q.
Proof. exact bingen32_error. Qed.
Print Assumptions C78_bingen_error.
Theorem C78_bingen_near : forall w s, single s -> (-(1) <= s <= 1)%Q -> (w <= 23)%nat -> Z.abs (bingen32 Bipolar w s - bingen Bipolar w s) <= 1.
Proof. exact bingen32_near. Qed.
Print Assumptions C78_bingen_near.
Theorem C78_bingen_exact_refuted : exists w s, single s /\ (-(1) <= s <= 1)%Q /\ bingen32 Bipolar w s <> bingen Bipolar w s.
Proof. exact bingen32_differs. Qed.
Print Assumptions C78_bingen_exact_refuted.

(** Two groupings of the same terms: exact inside the bound, different outside it. *)
Example C78_ex_sum : let l := [inject_Z (2 ^ 23); 3; - (5)]%Q in
  (eval32 (Add (Add (Term 3) (Term (inject_Z (2 ^ 23)))) (Term (- (5)))) == qsum l)%Q /\ (eval32 (Fma (Fma (Fma Zero (- (5))) (inject_Z (2 ^ 23))) 3) == qsum l)%Q /\
  ~ (eval32 (Add (Add (Term (inject_Z (2 ^ 24))) (Term 1)) (Term (-(1)))) == eval32 (Add (Term (inject_Z (2 ^ 24))) (Add (Term 1) (Term (-(1))))))%Q.
Proof. split; [|split]; vm_compute; congruence. Qed.

Definition ex_ext : rng_ext :=
  {| ext_dirvec := fun _ j => p2 (29 - j); ext_lfsr_next := fun s => s; ext_lfsr_init := []; ext_randperm := [] |}.
(** 2^-149, the smallest positive float32 number, shifted right by three is rounded to zero by float32; the output is still exact. *)
Definition ex_x : list Q := [1 # 2; - (7 # 8); Qpower 2 (-149)]%Q.
Definition ex_w : list Q := [3 # 4; 1 # 8; -(1)]%Q.
Example C78_ex_hub :
  match hub_new ex_ext ex_ext 4 4 "sobol" "tc" (Some 8) with
  | Ok c => match map2 (hub32_term c (-3) (-3)) ex_x ex_w with
            | [p; q; r] => Forall2 Qeq [p; q; r] [3; - (1); 0]%Q /\ hub_forward c (-3) (-3) 3 [ex_x] [ex_w] None = [[2 # 8]]%Q /\
                           (out32 (Add (Term r) (Fma (Term q) p)) 3 (Some (1 # 3)) == 9786709 # 16777216)%Q
            | _ => False
            end
  | Err _ => False
  end.
Proof. vm_compute. repeat first [split | constructor]. Qed.
Example C78_ex_fxp : map (map Qred) (fxp_forward (-7) (-7) 14 128 128 [ex_x] [ex_w] None) = [[17 # 64]]%Q /\
  match map2 (fxp32_term (-7) (-7) 128 128) ex_x ex_w with
  | [p; q; r] => Forall2 Qeq [p; q; r] [6144; - (1792); 0]%Q /\ (out32 (Add (Term r) (Fma (Term q) p)) 14 None == 17 # 64)%Q
  | _ => False
  end.
Proof. vm_compute. repeat first [split | constructor]. Qed.
Example C78_ex_bingen : bingen32 Bipolar 8 (1 # 256) = 128 /\ bingen32 Bipolar 8 (Qpower 2 (-8) + Qpower 2 (-31)) = 128 /\
  bingen Bipolar 8 (Qpower 2 (-8) + Qpower 2 (-31)) = 129 /\ bingen32 Unipolar 8 (3 # 8) = 96.
Proof. vm_compute. repeat split. Qed.
