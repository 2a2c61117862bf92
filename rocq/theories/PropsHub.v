(** Properties C39-C42, C53, C55, C56: HUBLinear, FXPLinear and TLUTLinear of /repo/kernel/linear.py. *)
From Coq Require Import String Lqa.
Require Import Verif.BaseLemmas Verif.GenModel Verif.GenProof Verif.UtilsModel Verif.UtilsProof Verif.LinearModel Verif.HubModel Verif.HubProof Verif.TlutProof.
Open Scope Z_scope.

(** C39. The constructed table: entry (i,j) is the number of the first i entries of the controlled sequence below j. *)
Theorem C39_hub_table : forall exti extw w ri rw ki kw cyc, (1 <= w <= 30)%nat -> ext_ok exti w -> ext_ok extw w ->
  rng_parse ri = Ok ki -> rng_parse rw = Ok kw -> ki <> KLfsr -> kw <> KLfsr -> is_tc ki && is_tc kw = false ->
  exists c, hub_new exti extw (S w) (S w) ri rw (Some cyc) = Ok c /\ hub_cycle c = Z.min cyc (p2 w) /\
    perm_seq w (hub_ctlee exti extw ki kw w) /\
    forall i j, 0 <= i < p2 w -> 0 <= j < p2 w ->
      hub_entry c i j = below (hub_ctlee exti extw ki kw w) j (Z.to_nat i).
Proof. exact hub_new_ok. Qed.
Print Assumptions C39_hub_table.
(** Laws of such a table for any permutation. *)
Theorem C39_hub_table_laws : forall w l c v, perm_seq w l -> 0 <= c <= p2 w -> 0 <= v <= p2 w ->
  let e := below l v (Z.to_nat c) in
  Z.max 0 (c + v - p2 w) <= e <= Z.min c v /\ (c = 0 \/ v = 0 -> e = 0) /\
  (forall c' v', 0 <= c' <= c -> 0 <= v' <= v -> below l v' (Z.to_nat c') <= e).
Proof. exact below_laws. Qed.
Print Assumptions C39_hub_table_laws.
(** Discrepancy for Sobol. *)
Theorem C39_hub_table_sobol : forall ext w, (w <= 30)%nat -> ext_ok ext w -> low_discrepancy w (rng_seq ext KSobol w 1).
Proof. exact sobol_low_discrepancy. Qed.
Print Assumptions C39_hub_table_sobol.
(** When the constructor fails. *)
Theorem C39_hub_new_errors : forall exti extw ri rw ki kw, rng_parse ri = Ok ki -> rng_parse rw = Ok kw ->
  (forall wi ww, hub_new exti extw wi ww ri rw None = Err TypeError) /\
  (forall wi ww cyc, is_tc ki = true -> is_tc kw = true -> hub_new exti extw wi ww ri rw (Some cyc) = Err AssertionError) /\
  (forall wi ww cyc, (wi <> ww)%nat -> (1 <= wi <= 30)%nat -> (1 <= ww <= 30)%nat -> is_tc ki && is_tc kw = false ->
     ext_ok exti (S wi - 1) -> ext_ok extw (S ww - 1) -> ki <> KLfsr -> kw <> KLfsr ->
     hub_new exti extw (S wi) (S ww) ri rw (Some cyc) = Err RuntimeError).
Proof. exact hub_new_errors. Qed.
Print Assumptions C39_hub_new_errors.
Definition ex_ext : rng_ext :=
  {| ext_dirvec := fun _ j => p2 (29 - j); ext_lfsr_next := fun s => s; ext_lfsr_init := []; ext_randperm := [2; 0; 3; 1] |}.
Lemma ex_ext_ok : ext_ok ex_ext 2.
Proof.
  split.
  - intros j Hj. exists 1. split; [|split; [reflexivity|]].
    + rewrite Z.mul_1_l. reflexivity.
    + rewrite p2_S. pose proof (p2_pos j). lia.
  - unfold perm_seq. cbn. apply NoDup_Permutation.
    + repeat constructor; cbn; intuition discriminate.
    + repeat constructor; cbn; intuition discriminate.
    + intros x. cbn. tauto.
Qed.
Definition ex_hub : hub_cfg := {| hub_cycle := 4; hub_map := [[0; 0; 0; 0]; [0; 1; 1; 1]; [0; 1; 1; 2]; [0; 1; 1; 2]] |}.
Example C39_ex : ext_ok ex_ext 2 /\ hub_new ex_ext ex_ext 3 3 "tc" "sobol" (Some 9) = Ok ex_hub /\
  hub_entry ex_hub 3 2 = 1 /\ below [0; 2; 3; 1] 2 3 = 1 /\
  hub_new ex_ext ex_ext 3 3 "tc" "race10" (Some 9) = Err AssertionError /\ hub_new ex_ext ex_ext 3 3 "tc" "sobol" None = Err TypeError /\
  hub_new ex_ext ex_ext 4 3 "tc" "sobol" (Some 9) = Err RuntimeError.
Proof. split; [exact ex_ext_ok|]. repeat split; vm_compute; reflexivity. Qed.

(** C40: the whole layer, constructor included, against the dot product of its quantised operands. *)
Theorem C40_hub_linear : forall exti extw w rngi rngw ki kw cyc B n no r qi qw input weight bias,
  (1 <= w <= 30)%nat -> ext_ok exti w -> ext_ok extw w ->
  rng_parse rngi = Ok ki -> rng_parse rngw = Ok kw -> ki <> KLfsr -> kw <> KLfsr -> is_tc ki && is_tc kw = false ->
  (if is_tc kw then ki else kw) = KSobol -> 1 <= cyc ->
  qshape B n input -> qshape no n weight -> bias_ok no bias ->
  exists c, hub_new exti extw (S w) (S w) rngi rngw (Some cyc) = Ok c /\
  forall out, hub_linear c (S w) (S w) r qi qw input weight bias = Ok (Some out) ->
  exists ri rw ro, rshift_offset (concat input) (concat weight) (Z.of_nat w) (Z.of_nat w) r qi qw = Ok (Some (ri, rw, ro)) /\
    qshape B no out /\
    forall b o, (b < B)%nat -> (o < no)%nat ->
    let cycle := Z.min cyc (p2 w) in
    (Qabs (qentry out b o -
       (dotq n (fun i => sm_quant cycle ri (qentry input b i)) (fun i => sm_quant cycle rw (qentry weight o i))
        + bias_entry bias o)) <= inject_Z (Z.of_nat n * Z.of_nat w) * Qpower 2 (Z.of_nat w + ri + rw))%Q.
Proof. exact hub_linear_bound. Qed.
Print Assumptions C40_hub_linear.
(** The same for any table with the discrepancy bound and given shifts. *)
Theorem C40_hub_forward : forall c w l ri rw ro B n no input weight bias,
  table_of c w l -> low_discrepancy w l -> 1 <= hub_cycle c <= p2 w -> ro = - (ri + rw) - Z.of_nat w ->
  qshape B n input -> qshape no n weight -> bias_ok no bias ->
  qshape B no (hub_forward c ri rw ro input weight bias) /\
  forall b o, (b < B)%nat -> (o < no)%nat ->
  (Qabs (qentry (hub_forward c ri rw ro input weight bias) b o -
     (dotq n (fun i => sm_quant (hub_cycle c) ri (qentry input b i)) (fun i => sm_quant (hub_cycle c) rw (qentry weight o i))
      + bias_entry bias o)) <= inject_Z (Z.of_nat n * Z.of_nat w) * Qpower 2 (Z.of_nat w + ri + rw))%Q.
Proof. exact hub_forward_bound. Qed.
Print Assumptions C40_hub_forward.
(** Sign and zero of a product. *)
Theorem C40_hub_sign : forall c w l ri rw x y, table_of c w l -> 1 <= hub_cycle c <= p2 w ->
  0 <= qsign x * qsign y * hub_mul c ri rw x y /\ ((x == 0 \/ y == 0)%Q -> hub_mul c ri rw x y = 0).
Proof. exact hub_mul_sign. Qed.
Print Assumptions C40_hub_sign.
(** What the quantised operand is. *)
Theorem C40_hub_quant : forall cycle r x, 1 <= cycle ->
  near_or_saturated (Qpower 2 r) (inject_Z (cycle - 1) * Qpower 2 r) x (sm_quant cycle r x) /\
  (0 <= x * sm_quant cycle r x)%Q /\ ((x == 0)%Q -> (sm_quant cycle r x == 0)%Q) /\ (sm_quant cycle r (- x) == - sm_quant cycle r x)%Q.
Proof. exact sm_quant_spec. Qed.
Print Assumptions C40_hub_quant.
Example C40_ex :
  match hub_linear ex_hub 3 3 RRound 1 1 [[1 # 2; - (3 # 4)]%Q] [[1; 1 # 4]%Q] (Some [1%Q]) with
  | Ok (Some [[v]]) => Qeq v (5 # 4)
  | _ => False
  end.
Proof. vm_compute. reflexivity. Qed.

(** C41: the fixed-point layer is the exact layer on the quantised operands ... *)
Theorem C41_fxp_forward : forall ri rw mi mw B n no input weight bias, 1 <= mi -> 1 <= mw ->
  qshape B n input -> qshape no n weight -> bias_ok no bias ->
  let out := fxp_forward ri rw (0 - ri - rw) mi mw input weight bias in
  qshape B no out /\ forall b o, (b < B)%nat -> (o < no)%nat ->
  (qentry out b o == dotq n (fun i => fx_quant mi ri (qentry input b i)) (fun i => fx_quant mw rw (qentry weight o i)) + bias_entry bias o)%Q.
Proof. exact fxp_forward_eq. Qed.
Print Assumptions C41_fxp_forward.
(** ... the quantised operand is within half a step or saturated, and exact on the grid ... *)
Theorem C41_fxp_quant : forall m r x, 1 <= m ->
  near_or_saturated (Qpower 2 r) (inject_Z (m - 1) * Qpower 2 r) x (fx_quant m r x) /\
  (Z.abs (step_round r x) <= m - 1 -> (Qabs (x - fx_quant m r x) <= Qpower 2 r * (1 # 2))%Q) /\
  (forall z, (x == inject_Z z * Qpower 2 r)%Q -> Z.abs z <= m - 1 -> (fx_quant m r x == x)%Q).
Proof. exact fx_quant_spec. Qed.
Print Assumptions C41_fxp_quant.
Theorem C41_fxp_exact : forall ri rw mi mw B n no input weight bias, 1 <= mi -> 1 <= mw ->
  qshape B n input -> qshape no n weight -> bias_ok no bias ->
  (forall b i, (b < B)%nat -> (i < n)%nat -> exists z, (qentry input b i == inject_Z z * Qpower 2 ri)%Q /\ Z.abs z <= mi - 1) ->
  (forall o i, (o < no)%nat -> (i < n)%nat -> exists z, (qentry weight o i == inject_Z z * Qpower 2 rw)%Q /\ Z.abs z <= mw - 1) ->
  forall b o, (b < B)%nat -> (o < no)%nat ->
  (qentry (fxp_forward ri rw (0 - ri - rw) mi mw input weight bias) b o ==
   dotq n (qentry input b) (qentry weight o) + bias_entry bias o)%Q.
Proof. exact fxp_exact. Qed.
Print Assumptions C41_fxp_exact.
(** ... the error of a dot product is bounded by the errors of its operands ... *)
Theorem C41_dot_perturb : forall n x x' y y',
  (Qabs (dotq n x' y' - dotq n x y) <= qsum (map (fun i => Qabs (x i - x' i) * Qabs (y i) + Qabs (x' i) * Qabs (y i - y' i)) (seq 0 n)))%Q.
Proof. exact dot_perturb. Qed.
Print Assumptions C41_dot_perturb.
(** ... and with quantile 1 the layer as called never saturates by more than [fx_slack] steps. *)
Theorem C41_fxp_linear : forall widthi widthw r qi qw B n no input weight bias out,
  (1 <= widthi)%nat -> (1 <= widthw)%nat -> (qi == 1)%Q -> (qw == 1)%Q ->
  qshape B n input -> qshape no n weight -> bias_ok no bias ->
  fxp_linear widthi widthw r qi qw input weight bias = Ok (Some out) ->
  exists ri rw ro, rshift_offset (concat input) (concat weight) (Z.of_nat widthi - 1) (Z.of_nat widthw - 1) r qi qw = Ok (Some (ri, rw, ro)) /\
  qshape B no out /\ forall b o, (b < B)%nat -> (o < no)%nat ->
    let dx := (fx_slack r * Qpower 2 ri)%Q in
    let dw := (fx_slack r * Qpower 2 rw)%Q in
    (Qabs (qentry out b o - (dotq n (qentry input b) (qentry weight o) + bias_entry bias o)) <=
     qsum (map (fun i => dx * Qabs (qentry weight o i) + (Qabs (qentry input b i) + dx) * dw) (seq 0 n)))%Q.
Proof. exact fxp_linear_error. Qed.
Print Assumptions C41_fxp_linear.
Example C41_ex :
  match fxp_linear 3 3 RRound 1 1 [[1 # 2; - (3 # 4)]%Q] [[1; 1 # 4]%Q] None with
  | Ok (Some [[v]]) => Qeq v (5 # 16)
  | _ => False
  end.
Proof. vm_compute. reflexivity. Qed.

(** C42. *)
Theorem C42_tlut_digits : forall width t cyc r x, (1 <= t)%nat -> 1 <= cyc ->
  let X := tlut_quant width r x in
  (tlut_temporal width t cyc r x == inject_Z (Z.sgn X * cut_digits (tlut_degree width t) t (cyc - 1) (Z.abs X)) * Qpower 2 r)%Q.
Proof. exact tlut_temporal_eq. Qed.
Print Assumptions C42_tlut_digits.
Theorem C42_tlut_roundtrip : forall width t r x, (1 <= t)%nat ->
  (tlut_temporal width t (p2 t) r x == tlut_plain width r x)%Q.
Proof. exact tlut_temporal_full. Qed.
Print Assumptions C42_tlut_roundtrip.
Theorem C42_tlut_cut : forall width t cyc r x, (1 <= t)%nat -> 1 <= cyc ->
  (0 <= tlut_plain width r x * tlut_temporal width t cyc r x)%Q /\
  (Qabs (tlut_temporal width t cyc r x) <= Qabs (tlut_plain width r x))%Q.
Proof. exact tlut_temporal_cut. Qed.
Print Assumptions C42_tlut_cut.
Theorem C42_tlut_quant : forall width r x,
  let X := tlut_quant width r x in let y := (x / Qpower 2 r)%Q in
  Z.abs X <= p2 width - 1 /\
  ((Qabs y <= inject_Z (p2 width - 1))%Q -> X = qtrunc y) /\
  ((inject_Z (p2 width - 1) <= y)%Q -> X = p2 width - 1) /\ ((y <= - inject_Z (p2 width - 1))%Q -> X = 1 - p2 width).
Proof. exact tlut_quant_spec. Qed.
Print Assumptions C42_tlut_quant.
Theorem C42_tlut_layer : forall tin widthi widthw t ri rw B n no input weight bias, (1 <= t)%nat ->
  qshape B n input -> qshape no n weight -> bias_ok no bias ->
  forall b o, (b < B)%nat -> (o < no)%nat ->
  (qentry (tlut_fxpfxp tin widthi widthw t (tlut_cycle t None) ri rw input weight bias) b o ==
   dotq n (fun i => tlut_plain widthi ri (qentry input b i)) (fun i => tlut_plain widthw rw (qentry weight o i)) + bias_entry bias o)%Q.
Proof. exact tlut_fxpfxp_full. Qed.
Print Assumptions C42_tlut_layer.
Theorem C42_tlut_layer_mixed : forall tin width t ri rw B n no input weight bias, (1 <= t)%nat ->
  qshape B n input -> qshape no n weight -> bias_ok no bias ->
  forall b o, (b < B)%nat -> (o < no)%nat ->
  (qentry (tlut_fxpfp tin width t (tlut_cycle t None) ri rw input weight bias) b o ==
   (if tin then dotq n (fun i => tlut_plain width ri (qentry input b i)) (qentry weight o)
    else dotq n (qentry input b) (fun i => tlut_plain width rw (qentry weight o i))) + bias_entry bias o)%Q.
Proof. exact tlut_fxpfp_full. Qed.
Print Assumptions C42_tlut_layer_mixed.
(** With any cycle limit only the temporal coded operand goes through the digit loop. *)
Theorem C42_tlut_layer_cut : forall (tin : bool) widthi widthw width t cyc ri rw B n no input weight bias,
  qshape B n input -> qshape no n weight -> bias_ok no bias ->
  forall b o, (b < B)%nat -> (o < no)%nat ->
  (qentry (tlut_fxpfxp tin widthi widthw t cyc ri rw input weight bias) b o ==
   (if tin then dotq n (fun i => tlut_temporal widthi t cyc ri (qentry input b i)) (fun i => tlut_plain widthw rw (qentry weight o i))
    else dotq n (fun i => tlut_plain widthi ri (qentry input b i)) (fun i => tlut_temporal widthw t cyc rw (qentry weight o i))) + bias_entry bias o)%Q /\
  (qentry (tlut_fxpfp tin width t cyc ri rw input weight bias) b o ==
   (if tin then dotq n (fun i => tlut_temporal width t cyc ri (qentry input b i)) (qentry weight o)
    else dotq n (qentry input b) (fun i => tlut_temporal width t cyc rw (qentry weight o i))) + bias_entry bias o)%Q.
Proof.
  intros tin widthi widthw width t cyc ri rw B n no input weight bias Hi Hw Hb b o Lb Lo.
  destruct (tlut_layer_any tin widthi widthw width t cyc ri rw B n no input weight bias Hi Hw Hb b o Lb Lo) as (A & C & _). exact (conj A C).
Qed.
Print Assumptions C42_tlut_layer_cut.
Example C42_ex : tlut_quant 7 0 (- (475 # 4)) = -118 /\ tlut_degree 7 3 = 3%nat /\
  Qeq (tlut_temporal 7 3 8 0 (- (475 # 4))) (-118) /\ Qeq (tlut_temporal 7 3 4 1 (- (475 # 2))) (-182) /\ cut_digits 3 3 3 118 = 91.
Proof. repeat split; vm_compute; reflexivity. Qed.

(** C53. *)
Theorem C53_gradients : forall B n no g input weight,
  qshape B no g -> qshape B n input -> qshape no n weight ->
  let G := qentry g in let X := qentry input in let W := qentry weight in
  (forall bias dX, (inner B no G (fun b o => affine n (fun i j => X i j + dX i j) W bias b o - affine n X W bias b o)
                    == inner B n (qentry (grad_input n g weight)) dX)%Q) /\
  (forall bias dW, (inner B no G (fun b o => affine n X (fun i j => W i j + dW i j) bias b o - affine n X W bias b o)
                    == inner no n (qentry (grad_weight no n g input)) dW)%Q) /\
  (forall bias db, (inner B no G (fun b o => affine n X W (fun o => bias o + db o) b o - affine n X W bias b o)
                    == qsum (map (fun o => nth o (grad_bias no g) 0 * db o) (seq 0 no)))%Q).
Proof. exact grad_adjoint. Qed.
Print Assumptions C53_gradients.
Example C53_ex : grad_input 2 [[1; 2]]%Q [[3; 4]; [5; 6]]%Q = [[1 * 3 + (2 * 5 + 0); 1 * 4 + (2 * 6 + 0)]]%Q /\
  grad_bias 2 [[1; 2]; [3; 4]]%Q = [1 + (3 + 0); 2 + (4 + 0)]%Q.
Proof. split; reflexivity. Qed.

(** C55: floating point operands of TLUTLinear. *)
Theorem C55_tlut_mantissa : forall width t cyc x e, (1 <= t)%nat -> (1 <= width)%nat -> 1 <= cyc ->
  (Qpower 2 (e - 1) <= Qabs x)%Q -> (Qabs x < Qpower 2 e)%Q ->
  (tlut_mantissa width t cyc x ==
   inject_Z (qsign x) * cut_digits_frac (tlut_degree width t) t (cyc - 1) (Qabs x * Qpower 2 (Z.of_nat width - e)) * Qpower 2 (e - Z.of_nat width))%Q.
Proof. exact tlut_mantissa_eq. Qed.
Print Assumptions C55_tlut_mantissa.
Theorem C55_tlut_mantissa_full : forall width t x e, (1 <= t)%nat -> (1 <= width)%nat ->
  (Qpower 2 (e - 1) <= Qabs x)%Q -> (Qabs x < Qpower 2 e)%Q ->
  let u := Qpower 2 (e - Z.of_nat width) in
  let y := tlut_mantissa width t (p2 t) x in
  (0 <= x * y)%Q /\ (Qabs y <= Qabs x)%Q /\ (Qabs x < Qabs y + u)%Q /\
  (forall z, (x == inject_Z z * u)%Q -> (y == x)%Q).
Proof. exact tlut_mantissa_full. Qed.
Print Assumptions C55_tlut_mantissa_full.
(** The floating-point layer: the temporal coded operand is coded, the other one used as it is. *)
Theorem C55_tlut_layer_fp : forall (tin : bool) width t cyc B n no input weight bias,
  qshape B n input -> qshape no n weight -> bias_ok no bias ->
  forall b o, (b < B)%nat -> (o < no)%nat ->
  (qentry (tlut_fpfp tin width t cyc input weight bias) b o ==
   (if tin then dotq n (fun i => tlut_mantissa width t cyc (qentry input b i)) (qentry weight o)
    else dotq n (qentry input b) (fun i => tlut_mantissa width t cyc (qentry weight o i))) + bias_entry bias o)%Q.
Proof.
  intros tin width t cyc B n no input weight bias Hi Hw Hb b o Lb Lo.
  exact (proj2 (proj2 (tlut_layer_any tin 0 0 width t cyc 0 0 B n no input weight bias Hi Hw Hb b o Lb Lo))).
Qed.
Print Assumptions C55_tlut_layer_fp.
(** "The result has at most width mantissa bits" is false: 257/512 with width 8 passes unchanged, while 287/512 is
    cut to 286/512. *)
Theorem C55_tlut_width_refuted : exists x y,
  (Qpower 2 (0 - 1) <= Qabs x < Qpower 2 0)%Q /\ (Qpower 2 (0 - 1) <= Qabs y < Qpower 2 0)%Q /\
  (forall z, ~ (tlut_mantissa 8 4 16 x == inject_Z z * Qpower 2 (0 - 8))%Q) /\
  (tlut_mantissa 8 4 16 x == x)%Q /\ (tlut_mantissa 8 4 16 y < y)%Q.
Proof.
  exists (257 # 512), (287 # 512). split; [split; vm_compute; [discriminate|reflexivity]|].
  split; [split; vm_compute; [discriminate|reflexivity]|]. assert (E : (tlut_mantissa 8 4 16 (257 # 512) == 257 # 512)%Q) by (vm_compute; reflexivity).
  split; [|split; [exact E|vm_compute; reflexivity]].
  intros z H. rewrite E in H. change (Qpower 2 (0 - 8)) with (1 # 256)%Q in H. unfold Qeq, inject_Z, Qmult in H. cbn [Qnum Qden] in H. lia.
Qed.
Print Assumptions C55_tlut_width_refuted.

(** C56: when the weight is the temporal operand (the controller by linear.py:380-383), the entry looked up for an input
    magnitude i and a weight magnitude j counts i entries below j: the roles are those of an input-controlled table. *)
Theorem C56_hub_roles : forall exti extw w ri rw ki kw cyc, (1 <= w <= 30)%nat -> ext_ok exti w -> ext_ok extw w ->
  rng_parse ri = Ok ki -> rng_parse rw = Ok kw -> ki <> KLfsr -> kw <> KLfsr -> is_tc ki = false -> is_tc kw = true ->
  exists c, hub_new exti extw (S w) (S w) ri rw (Some cyc) = Ok c /\
    forall i j, 0 <= i < p2 w -> 0 <= j < p2 w -> hub_entry c i j = below (rng_seq exti ki w 1) j (Z.to_nat i).
Proof.
  intros exti extw w ri rw ki kw cyc Hw Xi Xw Ki Kw Li Lw Ti Tw.
  destruct (hub_new_ok exti extw w ri rw ki kw cyc Hw Xi Xw Ki Kw Li Lw ltac:(rewrite Ti; reflexivity)) as (c & E & _ & _ & T).
  exists c. split; [exact E|]. unfold hub_ctlee in T. rewrite Tw in T. exact T.
Qed.
Print Assumptions C56_hub_roles.
(** It is not the weight-controlled count. *)
Theorem C56_hub_weight_controlled_refuted : exists c i j, hub_new ex_ext ex_ext 3 3 "sobol" "tc" (Some 4) = Ok c /\
  0 <= i < 4 /\ 0 <= j < 4 /\ hub_entry c i j <> below (rng_seq ex_ext KSobol 2 1) i (Z.to_nat j).
Proof. eexists. exists 3, 2. split; [vm_compute; reflexivity|]. split; [lia|]. split; [lia|]. vm_compute. discriminate. Qed.
Print Assumptions C56_hub_weight_controlled_refuted.
Example C56_ex : ext_ok ex_ext 2 /\ rng_seq ex_ext KSobol 2 1 = [0; 2; 3; 1] /\ is_tc KSobol = false /\ is_tc KAsc = true /\ rng_parse "race" = Ok KAsc.
Proof. split; [exact ex_ext_ok|]. repeat split; vm_compute; reflexivity. Qed.
