(** Property C70, and the exceptions of the stream layers (C34) and of FSUMGUCell (C65). C70: what the constructors of kernels, layers and metrics accept, in which order they refuse, and what they keep
    (/repo/kernel/{add,mul,div,sqrt,sigmoid,linear,conv}.py, /repo/metric/metric.py). What RNG itself accepts is C69, what the table of
    a HUB layer holds C39, and how a TLUT configuration is read C63. *)
From Coq Require Import String.
Require Import Verif.BaseLemmas Verif.GenModel Verif.NameSpec Verif.NewSpec Verif.UtilsModel Verif.LinearModel Verif.ConvModel Verif.HubModel
  Verif.BinConvModel Verif.NewModel Verif.NameProof Verif.NewProof Verif.MguModel.
Open Scope string_scope. Open Scope list_scope. Open Scope Z_scope.

(** FSUAdd. *)
Theorem C70_add : forall name scale depth entry,
  (forall c, fsuadd_new name scale depth entry = Ok c <->
     names_mode name (fa_mode c) /\ fa_scale c = scale /\ fa_depth c = depth /\ fa_entry c = entry) /\
  (~ named name ["unipolar"; "bipolar"] -> fsuadd_new name scale depth entry = Err AssertionError).
Proof. exact @fsuadd_outcomes. Qed.
Print Assumptions C70_add.
(** FSUHardsigmoid: a scaled adder of two inputs. *)
Theorem C70_hardsigmoid : forall name depth,
  (forall c, fsuhardsigmoid_new name depth = Ok c <->
     names_mode name (fa_mode c) /\ fa_scale c = Some 2%Q /\ fa_depth c = depth /\ fa_entry c = None) /\
  (~ named name ["unipolar"; "bipolar"] -> fsuhardsigmoid_new name depth = Err AssertionError).
Proof. exact @hardsigmoid_outcomes. Qed.
Print Assumptions C70_hardsigmoid.
(** FSUMul: only a static multiplier needs (and binarises) its operand. *)
Theorem C70_mul : forall ext prob w name (static : bool) rng_name d,
  let r := fsumul_new ext prob w name static rng_name d in
  (forall c, r = Ok c <-> exists m rng, names_mode name m /\ rng_new ext rng_name w d = Ok rng /\
     ((static = false /\ c = MulStream m w rng) \/ (static = true /\ exists p, prob = Some p /\ c = MulStatic m (bingen m w p) rng))) /\
  (forall e, r = Err e -> e = AssertionError).
Proof. exact @fsumul_outcomes. Qed.
Print Assumptions C70_mul.
(** CORDIV_kernel: any positive number of entries, of which the RNG has as many bits as the logarithm's floor. *)
Theorem C70_cordiv : forall ext entry rng_name d,
  let r := cordiv_new ext entry rng_name d in
  (forall n rng, r = Ok (n, rng) <->
     exists k : nat, 2 ^ Z.of_nat k <= entry < 2 ^ (Z.of_nat k + 1) /\ Z.of_nat n = entry /\ rng_new ext rng_name k d = Ok rng) /\
  (r = Err ValueError <-> entry <= 0) /\ (forall e, r = Err e -> e = ValueError \/ e = AssertionError).
Proof. exact @cordiv_outcomes. Qed.
Print Assumptions C70_cordiv.
(** FSUDiv. *)
Theorem C70_div : forall ext sa ss entry name rng_name d,
  let r := fsudiv_new ext sa ss entry name rng_name d in
  (forall c, r = Ok c <-> names_mode name (fd_mode c) /\ fd_depth_sa c = (sa - 1)%nat /\ fd_depth_ss c = ss /\
     cordiv_new ext entry rng_name d = Ok (fd_entry c, fd_rng c)) /\
  (r = Err ValueError <-> named name ["unipolar"; "bipolar"] /\ entry <= 0) /\
  (forall e, r = Err e -> e = ValueError \/ e = AssertionError).
Proof. exact @fsudiv_outcomes. Qed.
Print Assumptions C70_div.
(** FSUSqrt: both entry counts must be powers of two although entry_kn is not used; without an RNG to build (emit off, jk_trace on) its
    name is not even read. *)
Theorem C70_sqrt : forall ext name (jk emit : bool) kn sr rng_name,
  let r := fsusqrt_new ext name jk emit kn sr rng_name in
  (forall c, r = Ok c <-> pow2 kn /\ exists m (k : nat), names_mode name m /\ sr = 2 ^ Z.of_nat k /\
     ((emit = true /\ exists rng, rng_new ext rng_name k 1 = Ok rng /\ c = SqrtEmit m (2 ^ k) rng) \/
      (emit = false /\ jk = true /\ c = SqrtJk m) \/
      (emit = false /\ jk = false /\ exists rng, rng_new ext rng_name 2 4 = Ok rng /\ c = SqrtCordiv m rng))) /\
  (r = Err ValueError <-> named name ["unipolar"; "bipolar"] /\ (kn <= 0 \/ pow2 kn /\ sr <= 0)) /\
  (forall e, r = Err e -> e = ValueError \/ e = AssertionError).
Proof. exact @sqrt_outcomes. Qed.
Print Assumptions C70_sqrt.
(** ProgError (and Stability, which builds one). *)
Theorem C70_metric : forall name scale source,
  (forall m s, progerror_new name scale source = Ok (m, s) <-> names_mode name m /\ s = pe_source scale source) /\
  (~ named name ["unipolar"; "bipolar"] -> progerror_new name scale source = Err AssertionError).
Proof. exact @progerror_outcomes. Qed.
Print Assumptions C70_metric.
(** HUBLinear: cycle = None raises although the code has a branch for it; weights given from outside are taken as they are. *)
Theorem C70_hublinear : forall exti extw ni no (bias : bool) we be wi bi widthi widthw rngi rngw qi qw cycle rnd signmag,
  let r := hublin_new exti extw ni no bias we be wi bi widthi widthw rngi rngw qi qw cycle rnd signmag in
  (forall l, r = Ok l <-> cycle <> None /\ hub_config rngi rngw qi qw rnd signmag /\ names_rounding rnd (hl_round l) /\
     replaced (mat no ni) we wi (hl_weight l) /\ replaced_if bias (vec no) be bi (hl_bias l) /\
     hub_new exti extw widthi widthw rngi rngw cycle = Ok (hl_cfg l) /\
     hl_widthi l = widthi /\ hl_widthw l = widthw /\ hl_qi l = qi /\ hl_qw l = qw) /\
  (cycle = None -> r = Err TypeError) /\
  (cycle <> None -> ~ hub_config rngi rngw qi qw rnd signmag -> r = Err AssertionError) /\
  (cycle <> None -> hub_config rngi rngw qi qw rnd signmag ->
     (forall w b, ~ (replaced (mat no ni) we wi w /\ replaced_if bias (vec no) be bi b)) -> r = Err AssertionError).
Proof. exact @hublin_outcomes. Qed.
Print Assumptions C70_hublinear.
(** FXPLinear takes any rounding name and any quantile; only a known name selects a rounding. *)
Theorem C70_fxplinear : forall ni no (bias : bool) we be wi bi widthi widthw qi qw rnd,
  let r := fxplin_new ni no bias we be wi bi widthi widthw qi qw rnd in
  (forall l, r = Ok l <-> replaced (mat no ni) we wi (fl_weight l) /\ replaced_if bias (vec no) be bi (fl_bias l) /\
     (forall x, fl_round l = Some x <-> names_rounding rnd x) /\
     fl_widthi l = widthi /\ fl_widthw l = widthw /\ fl_qi l = qi /\ fl_qw l = qw) /\
  (forall e, r = Err e -> e = AssertionError).
Proof. exact @fxplin_outcomes. Qed.
Print Assumptions C70_fxplinear.
(** TLUTLinear. *)
Theorem C70_tlutlinear : forall ni no (bias : bool) we be wi bi temporal formati formatw widthi widthw widtht qi qw cycle rnd signmag,
  let r := tlutlin_new ni no bias we be wi bi temporal formati formatw widthi widthw widtht qi qw cycle rnd signmag in
  (forall c w b, r = Ok (c, (w, b)) <-> tlut_new temporal formati formatw widthi widthw widtht qi qw cycle rnd signmag = Ok c /\
     replaced (mat no ni) we wi w /\ replaced_if bias (vec no) be bi b) /\
  (forall e, r = Err e -> e = AssertionError).
Proof. exact @tlutlin_outcomes. Qed.
Print Assumptions C70_tlutlinear.
(** The convolutions: torch's own checks come first (ValueError), then for HUBConv2d the cycle count, then groups = 1 and zero padding. *)
Theorem C70_hubconv : forall exti extw ci co kernel groups (bias : bool) pm we be wi bi widthi widthw rngi rngw qi qw cycle rnd signmag,
  let r := hubconv_new exti extw ci co kernel groups bias pm we be wi bi widthi widthw rngi rngw qi qw cycle rnd signmag in
  (forall c x w b, r = Ok (c, x, (w, b)) <-> cycle <> None /\ hub_config rngi rngw qi qw rnd signmag /\ groups = 1%nat /\ pm = "zeros" /\
     names_rounding rnd x /\ replaced (kern co ci (fst kernel) (snd kernel)) we wi w /\ replaced_if bias (vec co) be bi b /\
     hub_new exti extw widthi widthw rngi rngw cycle = Ok c) /\
  (~ torch_accepts ci co groups pm -> r = Err ValueError) /\
  (torch_accepts ci co groups pm -> cycle = None -> r = Err TypeError) /\
  (torch_accepts ci co groups pm -> cycle <> None -> ~ (hub_config rngi rngw qi qw rnd signmag /\ groups = 1%nat /\ pm = "zeros") -> r = Err AssertionError).
Proof. exact @hubconv_outcomes. Qed.
Print Assumptions C70_hubconv.
Theorem C70_fxpconv : forall ci co kernel groups (bias : bool) pm we be wi bi rnd,
  let r := fxpconv_new ci co kernel groups bias pm we be wi bi rnd in
  (forall x w b, r = Ok (x, (w, b)) <-> groups = 1%nat /\ pm = "zeros" /\ (forall y, x = Some y <-> names_rounding rnd y) /\
     replaced (kern co ci (fst kernel) (snd kernel)) we wi w /\ replaced_if bias (vec co) be bi b) /\
  (r = Err ValueError <-> ~ torch_accepts ci co groups pm) /\ (forall e, r = Err e -> e = ValueError \/ e = AssertionError).
Proof. exact @fxpconv_outcomes. Qed.
Print Assumptions C70_fxpconv.
Theorem C70_tlutconv : forall ci co kernel groups (bias : bool) pm we be wi bi temporal formati formatw widthi widthw widtht qi qw cycle rnd signmag,
  let r := tlutconv_new ci co kernel groups bias pm we be wi bi temporal formati formatw widthi widthw widtht qi qw cycle rnd signmag in
  (forall c w b, r = Ok (c, (w, b)) <-> groups = 1%nat /\ pm = "zeros" /\
     tlut_new temporal formati formatw widthi widthw widtht qi qw cycle rnd signmag = Ok c /\
     replaced (kern co ci (fst kernel) (snd kernel)) we wi w /\ replaced_if bias (vec co) be bi b) /\
  (r = Err ValueError <-> ~ torch_accepts ci co groups pm) /\ (forall e, r = Err e -> e = ValueError \/ e = AssertionError).
Proof. exact @tlutconv_outcomes. Qed.
Print Assumptions C70_tlutconv.

Example C70_ex : let ext := {| ext_dirvec := fun _ j => p2 (29 - j); ext_lfsr_next := fun s => s; ext_lfsr_init := [1; 0]; ext_randperm := [2; 0; 3; 1] |} in
  fsusqrt_new ext "bipolar" true false 4 2 "no such rng" = Ok (SqrtJk Bipolar) /\
  fsusqrt_new ext "Unipolar" true true 1 4 "TC" = Ok (SqrtEmit Unipolar 4 [0; 1; 2; 3]) /\
  fsusqrt_new ext "bipolar" true true 3 4 "tc" = Err AssertionError /\ fsusqrt_new ext "bipolar" true true 3 0 "tc" = Err AssertionError /\
  fsusqrt_new ext "bipolar" true true 4 0 "tc" = Err ValueError /\ fsusqrt_new ext "x" true true 0 0 "tc" = Err AssertionError /\
  cordiv_new ext 7 "race10" 1 = Ok (7%nat, [3; 2; 1; 0]) /\ cordiv_new ext 0 "x" 1 = Err ValueError /\
  fsumul_new ext None 2 "bipolar" true "tc" 1 = Err AssertionError /\ fsumul_new ext None 1 "bipolar" false "tc" 1 = Ok (MulStream Bipolar 1 [0; 1]) /\
  hublin_new ext ext 1 1 true None None [[1%Q]] [0%Q] 3 3 "sobol" "tc" 1 1 None "round" true = Err TypeError /\
  hublin_new ext ext 1 1 true None (Some []) [[1%Q]] [0%Q] 3 3 "sobol" "tc" 1 1 (Some 4) "round" true = Err AssertionError /\
  (exists l, hublin_new ext ext 1 1 false (Some [[1 # 2]]) (Some []) [[1%Q]] [0%Q] 3 3 "sobol" "tc" 1 (1 # 3) (Some 9) "CEIL" true = Ok l /\
     hl_round l = RCeil /\ hl_bias l = None /\ hl_weight l = [[1 # 2]]) /\
  (exists l, fxplin_new 1 1 false None None [[1%Q]] [0%Q] 8 8 (-3) 7 "Nearest" = Ok l /\ fl_round l = None) /\
  fxpconv_new 3 4 (1, 1)%nat 3 false "zeros" None None [] [] "round" = Err ValueError /\
  fxpconv_new 4 4 (1, 1)%nat 2 false "zeros" None None [] [] "round" = Err AssertionError /\
  hubconv_new ext ext 1 1 (1, 1)%nat 1 false "same" None None [] [] 3 3 "sobol" "tc" 1 1 None "round" true = Err ValueError /\
  hubconv_new ext ext 1 1 (1, 1)%nat 1 false "reflect" None None [] [] 3 3 "sobol" "tc" 1 1 None "round" true = Err TypeError /\
  hubconv_new ext ext 1 1 (1, 1)%nat 1 false "reflect" None None [] [] 3 3 "sobol" "tc" 1 1 (Some 4) "round" true = Err AssertionError.
Proof.
  intros ext. repeat (split; [vm_compute; reflexivity|]). split; [eexists; split; [vm_compute; reflexivity|repeat split]|].
  split; [eexists; split; [vm_compute; reflexivity|reflexivity]|]. repeat (split; [vm_compute; reflexivity|]). vm_compute; reflexivity.
Qed.

(** C34. Exceptions of the stream layers. AttributeError: bias=True without bias_ext, everything else being right. *)
Theorem C34_pc_errors : forall ext ni no (bias : bool) we be wi width mn rn d,
  let r := pc_new ext ni no bias we be wi width mn rn d in
  (r = Err AttributeError <-> named mn ["unipolar"; "bipolar"] /\ named rn ["sobol"; "race"; "lfsr"; "sys"; "rc"; "tc"; "race10"; "tc10"] /\
     (forall w, we = Some w -> mat no ni w) /\ bias = true /\ be = None) /\
  (forall e, r = Err e -> e = AttributeError \/ e = AssertionError).
Proof. exact @pc_errors. Qed.
Print Assumptions C34_pc_errors.
Theorem C34_linear_errors : forall ext ni no (bias : bool) we be wi width mn rn d scale depth,
  let r := flin_new ext ni no bias we be wi width mn rn d scale depth in
  let refused := named mn ["bipolar"] /\ named rn ["race"; "tc"; "race10"; "tc10"] /\
    exists q, scale = Some q /\ ~ (q == inject_Z (Z.of_nat ni + (if bias then 1 else 0)))%Q in
  (refused -> r = Err AssertionError) /\
  (~ refused -> forall e, r = Err e <-> pc_new ext ni no bias we be wi width mn rn d = Err e).
Proof. exact @flin_errors. Qed.
Print Assumptions C34_linear_errors.
Theorem C34_conv_errors : forall ext ci co kernel stride pad dil groups (bias : bool) pm we be wi width mn rn d,
  let r := conv_new ext ci co kernel stride pad dil groups bias pm we be wi width mn rn d in
  (r = Err ValueError <-> ~ torch_accepts ci co groups pm) /\
  (r = Err AttributeError <-> named mn ["unipolar"; "bipolar"] /\ groups = 1%nat /\ pm = "zeros" /\
     named rn ["sobol"; "race"; "lfsr"; "sys"; "rc"; "tc"; "race10"; "tc10"] /\
     (forall w, we = Some w -> kern co ci (fst kernel) (snd kernel) w) /\ bias = true /\ be = None) /\
  (forall e, r = Err e -> e = ValueError \/ e = AttributeError \/ e = AssertionError).
Proof. exact @conv_errors. Qed.
Print Assumptions C34_conv_errors.
Theorem C34_fsuconv_errors : forall ext ci co kernel stride pad dil groups (bias : bool) pm we be wi width mn rn d scale depth,
  let r := fconv_new ext ci co kernel stride pad dil groups bias pm we be wi width mn rn d scale depth in
  let refused := named mn ["bipolar"] /\ named rn ["race"; "tc"; "race10"; "tc10"] /\
    exists q, scale = Some q /\ ~ (q == inject_Z (Z.of_nat (fst kernel * snd kernel * ci) + (if bias then 1 else 0)))%Q in
  (refused -> r = Err AssertionError) /\
  (~ refused -> forall e, r = Err e <-> conv_new ext ci co kernel stride pad dil groups bias pm we be wi width mn rn d = Err e).
Proof. exact @fconv_errors. Qed.
Print Assumptions C34_fsuconv_errors.
Example C34_ex_errors : let ext := {| ext_dirvec := fun _ j => p2 (29 - j); ext_lfsr_next := fun s => s; ext_lfsr_init := [1; 0]; ext_randperm := [2; 0; 3; 1] |} in
  pc_new ext 1 1 true (Some [[1%Q]]) None [] 2 "bipolar" "Sobol" 1 = Err AttributeError /\
  pc_new ext 1 1 true (Some [[1; 1]%Q]) None [] 2 "bipolar" "Sobol" 1 = Err AssertionError /\
  flin_new ext 1 1 true (Some [[1%Q]]) (Some [0%Q]) [] 2 "bipolar" "TC" 1 (Some 1%Q) 8 = Err AssertionError /\
  (exists c, flin_new ext 1 1 true (Some [[1%Q]]) (Some [0%Q]) [] 2 "bipolar" "TC" 1 (Some 2%Q) 8 = Ok c) /\
  conv_new ext 3 2 (1, 1)%nat (1, 1)%nat (PadNum 0) (1, 1)%nat 2 true "zeros" None None [] 2 "x" "y" 1 = Err ValueError /\
  conv_new ext 2 2 (1, 1)%nat (1, 1)%nat (PadNum 0) (1, 1)%nat 2 true "zeros" None None [] 2 "bipolar" "tc" 1 = Err AssertionError.
Proof.
  intros ext. repeat (split; [vm_compute; reflexivity|]). split; [eexists; vm_compute; reflexivity|]. split; vm_compute; reflexivity.
Qed.

(** C65. Exceptions of FSUMGUCell: AttributeError for the first missing tensor among weights and (with bias=True) biases if everything
    before it is right, AssertionError for everything else, a missing hx_buffer included. *)
Theorem C65_new_errors : forall ext I H (bias : bool) wf bf wn bn hx width mn depth dmul rn d,
  let r := mgu_new ext I H bias wf bf wn bn hx width mn depth dmul rn d in
  let weight w := exists m, w = Some m /\ mat H (H + I) m in
  let unset b := bias = true /\ b = None in
  let given b := bias = true -> exists v, b = Some v /\ vec H v in
  (r = Err AttributeError <-> named mn ["bipolar"] /\
     (wf = None \/ (weight wf /\ (wn = None \/ (weight wn /\ (unset bf \/ (given bf /\ unset bn))))))) /\
  (forall e, r = Err e -> e = AttributeError \/ e = AssertionError).
Proof. exact @mgu_errors. Qed.
Print Assumptions C65_new_errors.
