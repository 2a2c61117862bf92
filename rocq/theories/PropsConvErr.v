(** C75: the binary-interfaced convolutions against the real convolution. *)
From Coq Require Import String.
Require Import Verif.BaseLemmas Verif.Spec Verif.HubErrSpec Verif.BinConvSpec Verif.ConvErrSpec Verif.GenProof Verif.LinearModel Verif.LinearProof Verif.UtilsModel Verif.HubModel Verif.HubProof Verif.ConvModel Verif.BinConvModel Verif.BinConvProof Verif.NewModel Verif.NewSpec Verif.NewProof Verif.HubErrProof Verif.ConvErrProof Verif.PropsHub.
Open Scope string_scope.
Open Scope list_scope.
Open Scope Z_scope.

(** HUBConv2d from its constructor to its output, any rounding and early termination. X and Wm are the largest magnitudes of the input and
    the weight. *)
Theorem C75_hubconv_error : forall exti extw w C no g groups bias pm we be wi bi rngi rngw rnd qi qw cyc c r weight bo ki kw,
  hubconv_new exti extw C no (bv_kernel g) groups bias pm we be wi bi (S w) (S w) rngi rngw qi qw (Some cyc) rnd true = Ok (c, r, (weight, bo)) ->
  kern no C (fst (bv_kernel g)) (snd (bv_kernel g)) wi /\ vec no bi -> (1 <= w <= 30)%nat -> ext_ok exti w -> ext_ok extw w ->
  rng_parse rngi = Ok ki -> rng_parse rngw = Ok kw -> ki <> KLfsr -> kw <> KLfsr -> (if is_tc kw then ki else kw) = KSobol -> 1 <= cyc ->
  (qi == 1)%Q -> (qw == 1)%Q ->
  forall N H W ho wo input X Wm, bconv_geom g C H W ho wo -> (1 <= N)%nat -> tensor_ok anyq N C H W input ->
  is_max_abs (all_entries input) X -> is_max_abs (all_entries weight) Wm -> (0 < X)%Q -> (0 < Wm)%Q ->
  exists ri rw ro out, rshift_offset (all_entries input) (all_entries weight) (Z.of_nat w) (Z.of_nat w) r qi qw = Ok (Some (ri, rw, ro)) /\
  hubconv c g (S w) (S w) r qi qw input weight bo = Ok (Some out) /\ tensor_ok anyq N no ho wo out /\
  forall n o y x, (n < N)%nat -> (o < no)%nat -> (y < ho)%nat -> (x < wo)%nat ->
  let dx := (hub_slack r (Z.min cyc (p2 w)) w * Qpower 2 ri)%Q in
  let dw := (hub_slack r (Z.min cyc (p2 w)) w * Qpower 2 rw)%Q in
  let t := inject_Z (Z.of_nat (taps C (bv_kernel g))) in
  (Qabs (entry4 0%Q out n o y x - (conv_entry (bv_kernel g) (bv_stride g) (bv_dil g) (bv_pad g) C H W input weight n o y x + bias_entry bo o)) <=
   t * inject_Z (Z.of_nat w) * Qpower 2 (Z.of_nat w + ri + rw) + t * (dx * Wm + (X + dx) * dw))%Q.
Proof. exact @hubconv_error. Qed.
Print Assumptions C75_hubconv_error.
(** An all-zero operand has no binary logarithm. *)
Theorem C75_hubconv_zero : forall w C g qi qw c r weight bo, (qi == 1)%Q -> (qw == 1)%Q ->
  forall N H W ho wo input X Wm, bconv_geom g C H W ho wo -> (1 <= N)%nat -> tensor_ok anyq N C H W input ->
  is_max_abs (all_entries input) X -> is_max_abs (all_entries weight) Wm -> (X == 0)%Q \/ (Wm == 0)%Q ->
  hubconv c g (S w) (S w) r qi qw input weight bo = Ok None.
Proof. exact @hubconv_none. Qed.
Print Assumptions C75_hubconv_zero.
(** Rounding up, no early termination: the relative error is 4(w+2)/2^w per tap. *)
Theorem C75_hubconv_ceil : forall exti extw w C no g groups bias pm we be wi bi rngi rngw rnd qi qw cyc c r weight bo ki kw,
  hubconv_new exti extw C no (bv_kernel g) groups bias pm we be wi bi (S w) (S w) rngi rngw qi qw (Some cyc) rnd true = Ok (c, r, (weight, bo)) ->
  kern no C (fst (bv_kernel g)) (snd (bv_kernel g)) wi /\ vec no bi -> (1 <= w <= 30)%nat -> ext_ok exti w -> ext_ok extw w ->
  rng_parse rngi = Ok ki -> rng_parse rngw = Ok kw -> ki <> KLfsr -> kw <> KLfsr -> (if is_tc kw then ki else kw) = KSobol -> 1 <= cyc ->
  (qi == 1)%Q -> (qw == 1)%Q -> named rnd ["ceil"] -> p2 w <= cyc ->
  forall N H W ho wo input X Wm, bconv_geom g C H W ho wo -> (1 <= N)%nat -> tensor_ok anyq N C H W input ->
  is_max_abs (all_entries input) X -> is_max_abs (all_entries weight) Wm -> (0 < X)%Q -> (0 < Wm)%Q ->
  exists out, hubconv c g (S w) (S w) r qi qw input weight bo = Ok (Some out) /\ tensor_ok anyq N no ho wo out /\
  forall n o y x, (n < N)%nat -> (o < no)%nat -> (y < ho)%nat -> (x < wo)%nat ->
  (Qabs (entry4 0%Q out n o y x - (conv_entry (bv_kernel g) (bv_stride g) (bv_dil g) (bv_pad g) C H W input weight n o y x + bias_entry bo o)) <=
   inject_Z (Z.of_nat (taps C (bv_kernel g))) * (4 * (inject_Z (Z.of_nat w) + 2)) * X * Wm / inject_Z (p2 w))%Q.
Proof. exact @hubconv_converges. Qed.
Print Assumptions C75_hubconv_ceil.
(** The default rounding does not converge: one pixel and one tap of 7/5 give less than 1 instead of 49/25, whatever the width. *)
Theorem C75_hubconv_round_clips : forall exti extw w be wi bi rngi rngw rnd cyc c r weight bo ki kw,
  hubconv_new exti extw 1 1 (1, 1)%nat 1 false "zeros" (Some [[[[7 # 5]]]]%Q) be wi bi (S w) (S w) rngi rngw 1 1 (Some cyc) rnd true = Ok (c, r, (weight, bo)) ->
  named rnd ["round"] -> (1 <= w <= 30)%nat -> ext_ok exti w -> ext_ok extw w -> rng_parse rngi = Ok ki -> rng_parse rngw = Ok kw ->
  ki <> KLfsr -> kw <> KLfsr -> is_tc ki && is_tc kw = false -> 1 <= cyc ->
  exists v, hubconv c one_tap (S w) (S w) r 1 1 [[[[7 # 5]]]]%Q weight bo = Ok (Some [[[[v]]]]) /\ (v < 1)%Q.
Proof. exact @hubconv_round_clips. Qed.
Print Assumptions C75_hubconv_round_clips.
(** FXPConv2d converges with every rounding. *)
Theorem C75_fxpconv : forall C no g groups bias pm we be wi bi rnd r weight bo widthi widthw qi qw,
  fxpconv_new C no (bv_kernel g) groups bias pm we be wi bi rnd = Ok (Some r, (weight, bo)) ->
  kern no C (fst (bv_kernel g)) (snd (bv_kernel g)) wi /\ vec no bi ->
  (1 <= widthi)%nat -> (1 <= widthw)%nat -> (qi == 1)%Q -> (qw == 1)%Q ->
  forall N H W ho wo input X Wm, bconv_geom g C H W ho wo -> (1 <= N)%nat -> tensor_ok anyq N C H W input ->
  is_max_abs (all_entries input) X -> is_max_abs (all_entries weight) Wm -> (0 < X)%Q -> (0 < Wm)%Q ->
  exists out, fxpconv g widthi widthw r qi qw input weight bo = Ok (Some out) /\ tensor_ok anyq N no ho wo out /\
  forall n o y x, (n < N)%nat -> (o < no)%nat -> (y < ho)%nat -> (x < wo)%nat ->
    let ei := Qpower 2 (1 - Z.of_nat widthi) in let ew := Qpower 2 (1 - Z.of_nat widthw) in
    (Qabs (entry4 0%Q out n o y x - (conv_entry (bv_kernel g) (bv_stride g) (bv_dil g) (bv_pad g) C H W input weight n o y x + bias_entry bo o)) <=
     inject_Z (Z.of_nat (taps C (bv_kernel g))) * X * Wm * (ei + (1 + ei) * ew))%Q.
Proof. exact @fxpconv_converges. Qed.
Print Assumptions C75_fxpconv.
(** TLUTConv2d, no early termination: converges when rounding up, and always between floating-point formats; X is the largest magnitude
    under a tap (pixels no window covers do not count). *)
Theorem C75_tlutconv : forall C no g groups bias pm we be wi bi temporal formati formatw widthi widthw widtht qi qw rnd c weight bo ei ew,
  tlutconv_new C no (bv_kernel g) groups bias pm we be wi bi temporal formati formatw widthi widthw widtht qi qw None rnd true = Ok (c, (weight, bo)) ->
  kern no C (fst (bv_kernel g)) (snd (bv_kernel g)) wi /\ vec no bi ->
  (named rnd ["ceil"] \/ ~ named formati ["fxp"] /\ ~ named formatw ["fxp"]) ->
  (1 <= widthi)%nat -> (1 <= widthw)%nat -> (1 <= widtht)%nat -> (qi == 1)%Q -> (qw == 1)%Q -> tlut_steps temporal formati formatw widthi widthw ei ew ->
  forall N H W ho wo input X Wm, bconv_geom g C H W ho wo -> (1 <= N)%nat -> tensor_ok anyq N C H W input ->
  is_max_abs (under_all (bv_kernel g) (bv_stride g) (bv_dil g) (bv_pad g) N C H W ho wo input) X -> is_max_abs (all_entries weight) Wm -> (0 < X)%Q -> (0 < Wm)%Q ->
  exists out, tlutconv c g input weight bo = Ok (Some out) /\ tensor_ok anyq N no ho wo out /\
  forall n o y x, (n < N)%nat -> (o < no)%nat -> (y < ho)%nat -> (x < wo)%nat ->
    (Qabs (entry4 0%Q out n o y x - (conv_entry (bv_kernel g) (bv_stride g) (bv_dil g) (bv_pad g) C H W input weight n o y x + bias_entry bo o)) <=
     inject_Z (Z.of_nat (taps C (bv_kernel g))) * X * Wm * (ei + (1 + ei) * ew))%Q.
Proof. exact @tlutconv_converges. Qed.
Print Assumptions C75_tlutconv.
Theorem C75_tlutconv_round_clips : forall be wi bi temporal formati formatw widthi widthw widtht rnd c weight bo,
  tlutconv_new 1 1 (1, 1)%nat 1 false "zeros" (Some [[[[7 # 5]]]]%Q) be wi bi temporal formati formatw widthi widthw widtht 1 1 None rnd true = Ok (c, (weight, bo)) ->
  named formati ["fxp"] -> named formatw ["fxp"] -> named rnd ["round"] -> (1 <= widtht)%nat ->
  exists v, tlutconv c one_tap [[[[7 # 5]]]]%Q weight bo = Ok (Some [[[[v]]]]) /\ (v < 1)%Q.
Proof. exact @tlutconv_round_clips. Qed.
Print Assumptions C75_tlutconv_round_clips.

(** One channel [[7/5, -1/2], [1/4, 1]] inside a border of zeros, a 2x1 kernel (7/5, -1), stride (1, 2), bias 1/8:
    the windows only cover the second column, and the real entry at (1, 1) is -1/2 * 7/5 - 1 + 1/8 = -63/40. *)
Definition ex_g : bconv := {| bv_kernel := (2, 1); bv_stride := (1, 2); bv_dil := (1, 1); bv_pad := (1, 1) |}%nat.
Definition ex_in : list (image Q) := [[[[7 # 5; - (1 # 2)]; [1 # 4; 1]]]]%Q.
Definition ex_w : list (image Q) := [[[[7 # 5]; [- (1)]]]]%Q.
Example C75_ex :
  bconv_geom ex_g 1 2 2 3 2 /\ taps 1 (bv_kernel ex_g) = 2%nat /\
  (conv_entry (bv_kernel ex_g) (bv_stride ex_g) (bv_dil ex_g) (bv_pad ex_g) 1 2 2 ex_in ex_w 0 0 1 1 + bias_entry (Some [1 # 8]%Q) 0 == - (63 # 40))%Q /\
  (exists c r p, hubconv_new ex_ext ex_ext 1 1 (bv_kernel ex_g) 1 true "zeros" (Some ex_w) (Some [1 # 8]%Q) [] [] 3 3 "tc" "sobol" 1 1 (Some 4) "ceil" true = Ok (c, r, p) /\
     match hubconv c ex_g 3 3 r 1 1 ex_in (fst p) (snd p) with Ok (Some [[[_; [_; v]; _]]]) => Qeq v (- (15 # 8)) | _ => False end) /\
  match fxpconv ex_g 8 8 RRound 1 1 ex_in ex_w (Some [1 # 8]%Q) with Ok (Some [[[_; [_; v]; _]]]) => (Qabs (v + (63 # 40)) < 1 # 100)%Q | _ => False end /\
  (exists c p, tlutconv_new 1 1 (bv_kernel ex_g) 1 true "zeros" (Some ex_w) (Some [1 # 8]%Q) [] [] "i" "fxp" "fxp" 8 8 4 1 1 None "ceil" true = Ok (c, p) /\
     match tlutconv c ex_g ex_in (fst p) (snd p) with Ok (Some [[[_; [_; v]; _]]]) => (Qabs (v + (63 # 40)) < 2 # 100)%Q | _ => False end) /\
  is_max_abs (all_entries ex_in) (7 # 5) /\ is_max_abs (under_all (bv_kernel ex_g) (bv_stride ex_g) (bv_dil ex_g) (bv_pad ex_g) 1 1 2 2 3 2 ex_in) 1.
Proof.
  split; [unfold bconv_geom; cbn; repeat split; try lia; try reflexivity|]. split; [reflexivity|]. split; [vm_compute; reflexivity|].
  split; [do 3 eexists; split; [vm_compute; reflexivity|vm_compute; reflexivity]|].
  split; [vm_compute; reflexivity|]. split; [do 2 eexists; split; [vm_compute; reflexivity|vm_compute; reflexivity]|].
  split; (split; [|repeat constructor; vm_compute; discriminate]).
  - exists (7 # 5)%Q. split; [vm_compute; tauto|reflexivity].
  - exists 1%Q. split; [vm_compute; tauto|reflexivity].
Qed.
