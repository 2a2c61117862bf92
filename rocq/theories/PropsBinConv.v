(** Properties C61-C63: the binary-interfaced convolutions of /repo/kernel/conv.py and the formats of TLUTLinear (/repo/kernel/linear.py). *)
From Coq Require Import String Lqa.
Require Import Verif.BaseLemmas Verif.BinConvSpec Verif.GenModel Verif.GenProof Verif.UtilsModel Verif.UtilsProof Verif.LinearModel Verif.HubModel
  Verif.HubProof Verif.TlutProof Verif.ConvModel Verif.ConvProof Verif.BinConvModel Verif.BinConvProof
  Verif.NameSpec Verif.NameProof.
Open Scope Z_scope.
Ltac qtensors := unfold tensor_ok; repeat first [reflexivity | apply Forall_nil | apply Forall_cons | exact Logic.I | split].

(** C61. Every output entry is a sum over the taps of its window, zero outside the image, plus the bias. HUBConv2d: *)
Theorem C61_hub_taps : forall c g widthi widthw r qi qw N C H W ho wo no input weight bias ri rw ro,
  bconv_geom g C H W ho wo -> (1 <= N)%nat -> tensor_ok anyq N C H W input ->
  tensor_ok anyq no C (fst (bv_kernel g)) (snd (bv_kernel g)) weight -> bias_ok no bias ->
  rshift_offset (flat4 input) (flat4 weight) (Z.of_nat widthi - 1) (Z.of_nat widthw - 1) r qi qw = Ok (Some (ri, rw, ro)) ->
  exists out, hubconv c g widthi widthw r qi qw input weight bias = Ok (Some out) /\ tensor_ok anyq N no ho wo out /\
    forall n o y x, (n < N)%nat -> (o < no)%nat -> (y < ho)%nat -> (x < wo)%nat ->
      (entry4 0%Q out n o y x ==
       inject_Z (sum_taps C (fst (bv_kernel g)) (snd (bv_kernel g)) (fun k i j =>
         hub_mul c ri rw (under (bv_stride g) (bv_dil g) (bv_pad g) H W input n y x k i j) (entry4 0%Q weight o k i j)))
       / Qpower 2 ro + bias_entry bias o)%Q.
Proof. exact @hubconv_taps. Qed.
Print Assumptions C61_hub_taps.
(** ... and with Sobol tables within the discrepancy bound of the convolution of the quantised operands. *)
Theorem C61_hub_bound : forall exti extw w rngi rngw ki kw cyc g N C H W ho wo no r qi qw input weight bias ri rw ro,
  (1 <= w <= 30)%nat -> ext_ok exti w -> ext_ok extw w ->
  rng_parse rngi = Ok ki -> rng_parse rngw = Ok kw -> ki <> KLfsr -> kw <> KLfsr -> is_tc ki && is_tc kw = false ->
  (if is_tc kw then ki else kw) = KSobol -> 1 <= cyc ->
  bconv_geom g C H W ho wo -> (1 <= N)%nat -> tensor_ok anyq N C H W input ->
  tensor_ok anyq no C (fst (bv_kernel g)) (snd (bv_kernel g)) weight -> bias_ok no bias ->
  rshift_offset (flat4 input) (flat4 weight) (Z.of_nat w) (Z.of_nat w) r qi qw = Ok (Some (ri, rw, ro)) ->
  exists c out, hub_new exti extw (S w) (S w) rngi rngw (Some cyc) = Ok c /\
    hubconv c g (S w) (S w) r qi qw input weight bias = Ok (Some out) /\ tensor_ok anyq N no ho wo out /\
    forall n o y x, (n < N)%nat -> (o < no)%nat -> (y < ho)%nat -> (x < wo)%nat ->
      let cycle := Z.min cyc (p2 w) in
      (Qabs (entry4 0%Q out n o y x -
         (sumq_taps C (fst (bv_kernel g)) (snd (bv_kernel g)) (fun k i j =>
            sm_quant cycle ri (under (bv_stride g) (bv_dil g) (bv_pad g) H W input n y x k i j) * sm_quant cycle rw (entry4 0%Q weight o k i j))
          + bias_entry bias o)) <=
       inject_Z (Z.of_nat (C * (fst (bv_kernel g) * snd (bv_kernel g))) * Z.of_nat w) * Qpower 2 (Z.of_nat w + ri + rw))%Q.
Proof. exact @hubconv_bound. Qed.
Print Assumptions C61_hub_bound.
(** FXPConv2d: *)
Theorem C61_fxp_taps : forall g widthi widthw r qi qw N C H W ho wo no input weight bias ri rw ro,
  bconv_geom g C H W ho wo -> (1 <= N)%nat -> tensor_ok anyq N C H W input ->
  tensor_ok anyq no C (fst (bv_kernel g)) (snd (bv_kernel g)) weight -> bias_ok no bias ->
  rshift_offset (flat4 input) (flat4 weight) (Z.of_nat widthi - 1) (Z.of_nat widthw - 1) r qi qw = Ok (Some (ri, rw, ro)) ->
  exists out, fxpconv g widthi widthw r qi qw input weight bias = Ok (Some out) /\ tensor_ok anyq N no ho wo out /\
    forall n o y x, (n < N)%nat -> (o < no)%nat -> (y < ho)%nat -> (x < wo)%nat ->
      (entry4 0%Q out n o y x ==
       sumq_taps C (fst (bv_kernel g)) (snd (bv_kernel g)) (fun k i j =>
         fx_quant (p2 widthi) ri (under (bv_stride g) (bv_dil g) (bv_pad g) H W input n y x k i j) * fx_quant (p2 widthw) rw (entry4 0%Q weight o k i j))
       + bias_entry bias o)%Q.
Proof. exact @fxpconv_taps. Qed.
Print Assumptions C61_fxp_taps.
Theorem C61_fxp_exact : forall g widthi widthw r qi qw N C H W ho wo no input weight bias ri rw ro,
  bconv_geom g C H W ho wo -> (1 <= N)%nat -> tensor_ok anyq N C H W input ->
  tensor_ok anyq no C (fst (bv_kernel g)) (snd (bv_kernel g)) weight -> bias_ok no bias ->
  rshift_offset (flat4 input) (flat4 weight) (Z.of_nat widthi - 1) (Z.of_nat widthw - 1) r qi qw = Ok (Some (ri, rw, ro)) ->
  tensor_ok (fun v => exists z, (v == inject_Z z * Qpower 2 ri)%Q /\ Z.abs z <= p2 widthi - 1) N C H W input ->
  tensor_ok (fun v => exists z, (v == inject_Z z * Qpower 2 rw)%Q /\ Z.abs z <= p2 widthw - 1) no C (fst (bv_kernel g)) (snd (bv_kernel g)) weight ->
  exists out, fxpconv g widthi widthw r qi qw input weight bias = Ok (Some out) /\ tensor_ok anyq N no ho wo out /\
    forall n o y x, (n < N)%nat -> (o < no)%nat -> (y < ho)%nat -> (x < wo)%nat ->
      (entry4 0%Q out n o y x ==
       sumq_taps C (fst (bv_kernel g)) (snd (bv_kernel g)) (fun k i j =>
         under (bv_stride g) (bv_dil g) (bv_pad g) H W input n y x k i j * entry4 0%Q weight o k i j) + bias_entry bias o)%Q.
Proof. exact @fxpconv_exact. Qed.
Print Assumptions C61_fxp_exact.
(** TLUTConv2d on fixed-point formats without early termination: *)
Theorem C61_tlut_taps : forall temporal formati formatw widthi widthw widtht qi qw rnd c tin rd g N C H W ho wo no input weight bias ri rw ro,
  tlut_new temporal formati formatw (S widthi) (S widthw) widtht qi qw None rnd true = Ok c ->
  temporal_parse temporal = Ok tin -> format_parse formati = Ok TFxp -> format_parse formatw = Ok TFxp -> rounding_parse rnd = Ok rd -> (1 <= widtht)%nat ->
  bconv_geom g C H W ho wo -> (1 <= N)%nat -> tensor_ok anyq N C H W input ->
  tensor_ok anyq no C (fst (bv_kernel g)) (snd (bv_kernel g)) weight -> bias_ok no bias ->
  rshift_offset (under_all (bv_kernel g) (bv_stride g) (bv_dil g) (bv_pad g) N C H W ho wo input) (flat4 weight)
     (Z.of_nat widthi) (Z.of_nat widthw) rd qi qw = Ok (Some (ri, rw, ro)) ->
  exists out, tlutconv c g input weight bias = Ok (Some out) /\ tensor_ok anyq N no ho wo out /\
    forall n o y x, (n < N)%nat -> (o < no)%nat -> (y < ho)%nat -> (x < wo)%nat ->
      (entry4 0%Q out n o y x ==
       sumq_taps C (fst (bv_kernel g)) (snd (bv_kernel g)) (fun k i j =>
         tlut_plain widthi ri (under (bv_stride g) (bv_dil g) (bv_pad g) H W input n y x k i j) * tlut_plain widthw rw (entry4 0%Q weight o k i j))
       + bias_entry bias o)%Q.
Proof. exact @tlutconv_fixed. Qed.
Print Assumptions C61_tlut_taps.
Definition ex_g2 : bconv := {| bv_kernel := (2, 2)%nat; bv_stride := (2, 1)%nat; bv_dil := (1, 1)%nat; bv_pad := (1, 0)%nat |}.
Definition ex_img2 : list (image Q) := [[[[1; -2; 3#2]; [1#2; 0; -1]]]]%Q.
Definition ex_wt2 : list (image Q) := [[[[1; -(1#2)]; [3#4; 1]]]]%Q.
Definition reds (o : result (option (list (image Q)))) : option (list (image Q)) :=
  match o with Ok o => option_map (map (map (map (map Qred)))) o | Err _ => None end.
Example C61_ex : bconv_geom ex_g2 1 2 3 2 2 /\ tensor_ok (fun _ => True) 1 1 2 3 ex_img2 /\ tensor_ok (fun _ => True) 1 1 2 2 ex_wt2 /\
  rshift_offset (flat4 ex_img2) (flat4 ex_wt2) (Z.of_nat 6 - 1) (Z.of_nat 6 - 1) RCeil 1 1 = Ok (Some (-4, -5, 4)) /\
  reds (fxpconv ex_g2 6 6 RCeil 1 1 ex_img2 ex_wt2 (Some [1%Q])) = Some [[[[-1 # 4; 1]; [3 # 2; 3 # 2]]]]%Q /\
  rshift_offset (under_all (bv_kernel ex_g2) (bv_stride ex_g2) (bv_dil ex_g2) (bv_pad ex_g2) 1 1 2 3 2 2 ex_img2) (flat4 ex_wt2) 7 7 RRound 1 1
    = Ok (Some (-6, -7, 6)) /\
  match tlut_new "I" "fxp" "FXP" 8 8 3 1 1 None "Round" true with
  | Ok c => reds (tlutconv c ex_g2 ex_img2 ex_wt2 (Some [1%Q])) = Some [[[[-1793 # 8192; 1]; [383 # 256; 3 # 2]]]]%Q
  | Err _ => False
  end.
Proof.
  split; [unfold bconv_geom; cbn; repeat split; lia|]. split; [qtensors|]. split; [qtensors|].
  split; [vm_compute; reflexivity|]. split; [vm_compute; reflexivity|]. split; vm_compute; reflexivity.
Qed.
(** The table of a 5-bit Sobol sequence. *)
Definition ex_ext61 : rng_ext := 
  {| ext_dirvec := fun _ j => p2 (29 - j); ext_lfsr_next := fun s => s; ext_lfsr_init := []; ext_randperm := [2; 0; 3; 1] |}.
Example C61_ex_hub :
  match hub_new ex_ext61 ex_ext61 6 6 "sobol" "tc" (Some 32) with
  | Ok c => reds (hubconv c ex_g2 6 6 RCeil 1 1 ex_img2 ex_wt2 (Some [1%Q])) = Some [[[[-1 # 8; 1]; [3 # 2; 3 # 2]]]]%Q
  | Err _ => False
  end.
Proof. vm_compute. reflexivity. Qed.

(** C62. TLUTConv2d reads only the pixels under some tap ... *)
Theorem C62_tlut_covered : forall c g N C H W ho wo input input' weight bias, bconv_geom g C H W ho wo -> (1 <= N)%nat ->
  tensor_ok anyq N C H W input -> tensor_ok anyq N C H W input' ->
  (forall n k v u, (n < N)%nat -> (k < C)%nat -> (v < H)%nat -> (u < W)%nat -> covered (bv_kernel g) (bv_stride g) (bv_dil g) (bv_pad g) ho wo v u ->
     entry4 0%Q input n k v u = entry4 0%Q input' n k v u) ->
  tlutconv c g input weight bias = tlutconv c g input' weight bias.
Proof. exact @tlutconv_covered. Qed.
Print Assumptions C62_tlut_covered.
(** ... HUBConv2d and FXPConv2d too, once the two inputs give the same shifts ... *)
Theorem C62_hub_fxp_covered : forall c g widthi widthw r qi qw N C H W ho wo input input' weight bias, bconv_geom g C H W ho wo -> (1 <= N)%nat ->
  tensor_ok anyq N C H W input -> tensor_ok anyq N C H W input' ->
  (forall n k v u, (n < N)%nat -> (k < C)%nat -> (v < H)%nat -> (u < W)%nat -> covered (bv_kernel g) (bv_stride g) (bv_dil g) (bv_pad g) ho wo v u ->
     entry4 0%Q input n k v u = entry4 0%Q input' n k v u) ->
  rshift_offset (flat4 input) (flat4 weight) (Z.of_nat widthi - 1) (Z.of_nat widthw - 1) r qi qw =
  rshift_offset (flat4 input') (flat4 weight) (Z.of_nat widthi - 1) (Z.of_nat widthw - 1) r qi qw ->
  hubconv c g widthi widthw r qi qw input weight bias = hubconv c g widthi widthw r qi qw input' weight bias /\
  fxpconv g widthi widthw r qi qw input weight bias = fxpconv g widthi widthw r qi qw input' weight bias.
Proof. exact @hubconv_covered. Qed.
Print Assumptions C62_hub_fxp_covered.
(** ... but the shifts come from the whole tensor: a pixel that no window covers changes the result. *)
Definition ex_g62 : bconv := {| bv_kernel := (1, 1)%nat; bv_stride := (2, 2)%nat; bv_dil := (1, 1)%nat; bv_pad := (0, 0)%nat |}.
Theorem C62_fxp_uncovered_refuted : exists g N C H W ho wo no widthi widthw input input' weight out out',
  bconv_geom g C H W ho wo /\ tensor_ok (fun _ => True) N C H W input /\ tensor_ok (fun _ => True) N C H W input' /\
  tensor_ok (fun _ => True) no C (fst (bv_kernel g)) (snd (bv_kernel g)) weight /\
  (forall n k v u, (n < N)%nat -> (k < C)%nat -> (v < H)%nat -> (u < W)%nat -> covered (bv_kernel g) (bv_stride g) (bv_dil g) (bv_pad g) ho wo v u ->
     entry4 0%Q input n k v u = entry4 0%Q input' n k v u) /\
  fxpconv g widthi widthw RRound 1 1 input weight None = Ok (Some out) /\
  fxpconv g widthi widthw RRound 1 1 input' weight None = Ok (Some out') /\
  ~ (entry4 0%Q out 0 0 0 0 == entry4 0%Q out' 0 0 0 0)%Q.
Proof.
  exists ex_g62, 1%nat, 1%nat, 1%nat, 2%nat, 1%nat, 1%nat, 1%nat, 4%nat, 4%nat, [[[[3 # 8; 0]]]]%Q, [[[[3 # 8; 64]]]]%Q, [[[[1]]]]%Q.
  exists [[[[48 # 128]]]]%Q, [[[[0]]]]%Q.
  split; [unfold bconv_geom; cbn; repeat split; lia|]. split; [qtensors|]. split; [qtensors|]. split; [qtensors|]. split.
  - intros n k v u Hn Hk Hv Hu (y & x & i & j & Hy & Hx & Hi & Hj & E1 & E2). cbn in Hi, Hj, E1, E2.
    assert (n = 0%nat) by lia. assert (k = 0%nat) by lia. assert (v = 0%nat) by lia. assert (u = 0%nat) by lia. subst. reflexivity.
  - split; [vm_compute; reflexivity|]. split; [vm_compute; reflexivity|]. cbn. intros E. discriminate E.
Qed.
Print Assumptions C62_fxp_uncovered_refuted.
Example C62_ex : covered (2, 2)%nat (2, 1)%nat (1, 1)%nat (1, 0)%nat 2 2 1 2 /\ ~ covered (1, 1)%nat (2, 2)%nat (1, 1)%nat (0, 0)%nat 1 1 0 1 /\
  match tlut_new "i" "fxp" "fxp" 4 4 2 1 1 None "round" true with
  | Ok c => reds (tlutconv c ex_g62 [[[[3 # 8; 0]]]] [[[[1]]]] None)%Q = Some [[[[21 # 64]]]]%Q /\
            (tlutconv c ex_g62 [[[[3 # 8; 64]]]] [[[[1]]]] None = tlutconv c ex_g62 [[[[3 # 8; 0]]]] [[[[1]]]] None)%Q
  | Err _ => False
  end.
Proof.
  split; [exists 1%nat, 1%nat, 0%nat, 1%nat; cbn; lia|]. split; [intros (y & x & i & j & Hy & Hx & Hi & Hj & E1 & E2); cbn in *; lia|].
  split; vm_compute; reflexivity.
Qed.

(** C63. Which configurations TLUTLinear and TLUTConv2d accept; all others raise AssertionError. *)
Theorem C63_accepts : forall temporal formati formatw widthi widthw widtht qi qw cycle rnd signmag,
  let accepted := named temporal ["i"; "input"; "w"; "weight"]%string /\ named formati ["fxp"; "bfloat16"; "float16"; "float32"]%string /\
    named formatw ["fxp"; "bfloat16"; "float16"; "float32"]%string /\ (0 < qi <= 1)%Q /\ (0 < qw <= 1)%Q /\
    named rnd ["round"; "ceil"; "floor"]%string /\ signmag = true in
  let r := tlut_new temporal formati formatw widthi widthw widtht qi qw cycle rnd signmag in
  (accepted -> exists c, r = Ok c) /\ (~ accepted -> r = Err AssertionError).
Proof. exact @tlut_accepts. Qed.
Print Assumptions C63_accepts.
(** What an accepted configuration means. *)
Theorem C63_config : forall temporal formati formatw widthi widthw widtht qi qw cycle rnd signmag c,
  tlut_new temporal formati formatw widthi widthw widtht qi qw cycle rnd signmag = Ok c ->
  (tc_tin c = true <-> named temporal ["i"; "input"]%string) /\
  (tc_mode c = FxpFxp <-> named formati ["fxp"]%string /\ named formatw ["fxp"]%string) /\
  (tc_mode c = FpFp <-> ~ named formati ["fxp"]%string /\ ~ named formatw ["fxp"]%string) /\
  tc_widthi c = (widthi - 1)%nat /\ tc_widthw c = (widthw - 1)%nat /\ tc_widtht c = widtht /\
  (if tc_tin c then significand formati widthi (tc_width c) else significand formatw widthw (tc_width c)) /\
  (cycle = None -> tc_cycle c = 2 ^ Z.of_nat widtht) /\ (forall n, cycle = Some n -> tc_cycle c = Z.min n (2 ^ Z.of_nat widtht)) /\
  (tc_round c = RRound <-> named rnd ["round"]%string) /\ (tc_round c = RCeil <-> named rnd ["ceil"]%string) /\
  (tc_round c = RFloor <-> named rnd ["floor"]%string) /\ tc_qi c = qi /\ tc_qw c = qw.
Proof. exact @tlut_config. Qed.
Print Assumptions C63_config.
(** With one fixed-point and one floating-point format, the temporal coded operand is quantised whatever its declared format, the other
    operand is used as it is whatever its declared format. *)
Theorem C63_mixed : forall temporal formati formatw widthi widthw widtht qi qw rnd c (tin : bool) rd width B n no input weight bias ri rw ro,
  tlut_new temporal formati formatw widthi widthw widtht qi qw None rnd true = Ok c ->
  named temporal (if tin then ["i"; "input"] else ["w"; "weight"])%string ->
  (named formati ["fxp"]%string /\ ~ named formatw ["fxp"]%string \/ ~ named formati ["fxp"]%string /\ named formatw ["fxp"]%string) ->
  (if tin then significand formati widthi width else significand formatw widthw width) -> rounding_parse rnd = Ok rd -> (1 <= widtht)%nat ->
  qshape B n input -> qshape no n weight -> bias_ok no bias ->
  rshift_offset (concat input) (concat weight) (Z.of_nat width) (Z.of_nat width) rd qi qw = Ok (Some (ri, rw, ro)) ->
  exists out, tlut_apply c input weight bias = Ok (Some out) /\
    forall b o, (b < B)%nat -> (o < no)%nat ->
      (qentry out b o ==
       (if tin then dotq n (fun i => tlut_plain width ri (qentry input b i)) (qentry weight o)
        else dotq n (qentry input b) (fun i => tlut_plain width rw (qentry weight o i))) + bias_entry bias o)%Q.
Proof. exact @tlut_mixed_named. Qed.
Print Assumptions C63_mixed.
Definition scale_to_shift (m : list (list Q)) (width : nat) : option Z :=
  match rshift_offset [1%Q] (concat m) 0 (Z.of_nat width - 1) RRound 1 1 with Ok (Some (_, rw, _)) => Some rw | _ => None end.
(** So a weight declared fixed-point with one magnitude bit is not quantised: two weights with the same quantised values give different results ... *)
Theorem C63_declared_fxp_refuted : exists temporal formati formatw widthi widthw widtht c rw input weight weight' out out',
  format_parse formatw = Ok TFxp /\ tlut_new temporal formati formatw widthi widthw widtht 1 1 None "round" true = Ok c /\
  scale_to_shift weight widthw = Some rw /\ scale_to_shift weight' widthw = Some rw /\
  (forall o i, (o < 1)%nat -> (i < 2)%nat -> tlut_plain (widthw - 1) rw (qentry weight o i) = tlut_plain (widthw - 1) rw (qentry weight' o i)) /\
  tlut_apply c input weight None = Ok (Some out) /\ tlut_apply c input weight' None = Ok (Some out') /\
  ~ (qentry out 0 0 == qentry out' 0 0)%Q.
Proof.
  exists "i"%string, "bfloat16"%string, "fxp"%string, 8%nat, 2%nat, 2%nat. eexists. exists (-1), [[0; 1]]%Q, [[1; 3 # 8]]%Q, [[1; 1 # 4]]%Q. eexists. eexists.
  split; [reflexivity|]. split; [vm_compute; reflexivity|]. split; [vm_compute; reflexivity|]. split; [vm_compute; reflexivity|]. split.
  - intros o i Ho Hi. assert (o = 0%nat) by lia. assert (i = 0%nat \/ i = 1%nat) as [-> | ->] by lia; subst o; vm_compute; reflexivity.
  - split; [vm_compute; reflexivity|]. split; [vm_compute; reflexivity|]. cbn. intros E. discriminate E.
Qed.
Print Assumptions C63_declared_fxp_refuted.
(** ... and an input declared bfloat16, although a bfloat16 number, is flushed to zero next to a large one. *)
Theorem C63_declared_float_refuted : exists temporal formati formatw widthi widthw widtht c c' input weight out out',
  format_parse formati = Ok TBfloat16 /\ tlut_new temporal formati formatw widthi widthw widtht 1 1 None "round" true = Ok c /\
  tlut_new temporal formati formati widthi widthw widtht 1 1 None "round" true = Ok c' /\
  tlut_apply c input weight None = Ok (Some out) /\ tlut_apply c' input weight None = Ok (Some out') /\
  (qentry out 0 0 == 0)%Q /\ (qentry out' 0 0 == dotq 2 (qentry input 0) (qentry weight 0))%Q /\ ~ (qentry out' 0 0 == 0)%Q.
Proof.
  exists "i"%string, "bfloat16"%string, "fxp"%string, 8%nat, 8%nat, 3%nat. eexists. eexists. exists [[1; 1 # 1024]]%Q, [[0; 1]]%Q. eexists. eexists.
  split; [reflexivity|]. split; [vm_compute; reflexivity|]. split; [vm_compute; reflexivity|]. split; [vm_compute; reflexivity|].
  split; [vm_compute; reflexivity|]. split; [vm_compute; reflexivity|]. split; [vm_compute; reflexivity|]. cbn. intros E. discriminate E.
Qed.
Print Assumptions C63_declared_float_refuted.
Example C63_ex : (exists c, tlut_new "Input" "FLOAT16" "fxp" 8 6 4 (1 # 2) 1 (Some 3) "Floor" true = Ok c /\ tc_mode c = FxpFp /\ tc_width c = 11%nat /\
    tc_cycle c = 3 /\ tc_round c = RFloor) /\
  tlut_new "x" "fxp" "fxp" 8 8 4 1 1 None "round" true = Err AssertionError /\ tlut_new "i" "fxp8" "fxp" 8 8 4 1 1 None "round" true = Err AssertionError /\
  tlut_new "i" "fxp" "fxp" 8 8 4 0 1 None "round" true = Err AssertionError /\ tlut_new "i" "fxp" "fxp" 8 8 4 1 1 None "round" false = Err AssertionError /\
  match tlut_new "w" "float32" "fxp" 8 4 3 1 1 None "Round" true with
  | Ok c => match tlut_apply c [[1 # 3; 5]]%Q [[1; 3 # 7]]%Q None with Ok o => option_map (map (map Qred)) o = Some [[13 # 6]]%Q | Err _ => False end
  | Err _ => False
  end.
Proof. split; [eexists; split; [vm_compute; reflexivity|]; repeat split|]. repeat split; vm_compute; reflexivity. Qed.
