(** Construction of the kernels: the checks of the constructors in code order and the configuration they leave behind. Configuration
    dictionaries have the documented keys with values of the documented types; dtype entries (swcfg) are not modelled. *)
From Coq Require Import String.
Require Export Verif.Base Verif.GenModel Verif.AddModel Verif.KernelModel Verif.DivModel Verif.MetricModel Verif.UtilsModel
  Verif.LinearModel Verif.HubModel Verif.ConvModel Verif.BinConvModel.
Open Scope Z_scope.

(** add.py:20-50: only the mode is checked; scale, depth and entry are taken as given. *)
Definition fsuadd_new (mode_name : string) (scale : option Q) (depth : Z) (entry : option Z) : result fsuadd_cfg :=
  bind (mode_parse mode_name) (fun m => Ok {| fa_mode := m; fa_scale := scale; fa_depth := depth; fa_entry := entry |}).

(** sigmoid.py:21-42: the adder has scale 2 and no entry, whatever the configuration says. *)
Definition fsuhardsigmoid_new (mode_name : string) (depth : Z) : result fsuadd_cfg :=
  bind (mode_parse mode_name) (fun _ => fsuadd_new mode_name (Some 2%Q) depth None).

(** mul.py:28-75: a static multiplier holds its binary operand, an in-stream one a register of 2**width entries.
    Order of the checks: mode (:46), rng (:51), operand (:56). *)
Inductive mul_cfg : Type :=
| MulStatic (m : mode) (binary : Z) (rng : list Z)
| MulStream (m : mode) (width : nat) (rng : list Z).
Definition fsumul_new (ext : rng_ext) (in_1_prob : option Q) (width : nat) (mode_name : string) (static : bool)
           (rng_name : string) (dimr : nat) : result mul_cfg :=
  bind (mode_parse mode_name) (fun m =>
  bind (rng_new ext rng_name width dimr) (fun rng =>
  if static then
    match in_1_prob with
    | None => Err AssertionError
    | Some p => Ok (MulStatic m (bingen m width p) rng)
    end
  else Ok (MulStream m width rng))).

(** div.py:22-45. math.log2 of 0 or less raises ValueError; int(math.log2(entry)) is the floor (exact for entry < 2^48; beyond,
    the float logarithm of 2^k - 1 may round up to k). The name is checked by RNG. *)
Definition cordiv_new (ext : rng_ext) (entry : Z) (rng_name : string) (dimr : nat) : result (nat * list Z) :=
  if entry <=? 0 then Err ValueError
  else bind (rng_new ext rng_name (Z.to_nat (Z.log2 entry)) dimr) (fun rng => Ok (Z.to_nat entry, rng)).

(** div.py:79-131: mode, then the kernel. depth_sa >= 1. *)
Definition fsudiv_new (ext : rng_ext) (depth_sa depth_ss : nat) (entry_kn : Z) (mode_name rng_name : string) (dimr : nat) : result fsudiv_cfg :=
  bind (mode_parse mode_name) (fun m =>
  bind (cordiv_new ext entry_kn rng_name dimr) (fun kn =>
  Ok {| fd_mode := m; fd_depth_sa := depth_sa - 1; fd_depth_ss := depth_ss; fd_entry := fst kn; fd_rng := snd kn |})).

(** sqrt.py:54-57: ceil(log2 n) = floor(log2 n); log2 raises ValueError for n <= 0. *)
Definition log2_check (n : Z) : result unit :=
  if n <=? 0 then Err ValueError else if Z.log2_up n =? Z.log2 n then Ok tt else Err AssertionError.

(** sqrt.py:30-127. entry_kn is checked but never used: the kernel has 4 entries (:118). The name of the rng is only read when an
    RNG is built, that is not with emit=False and jk_trace=True. *)
Inductive sqrt_cfg : Type :=
| SqrtEmit (m : mode) (entry_sr : nat) (rng : list Z)
| SqrtJk (m : mode)
| SqrtCordiv (m : mode) (rng : list Z).
Definition fsusqrt_new (ext : rng_ext) (mode_name : string) (jk_trace emit : bool) (entry_kn entry_sr : Z) (rng_name : string) : result sqrt_cfg :=
  bind (mode_parse mode_name) (fun m =>
  bind (log2_check entry_kn) (fun _ =>
  bind (log2_check entry_sr) (fun _ =>
  if emit then bind (rng_new ext rng_name (Z.to_nat (Z.log2 entry_sr)) 1) (fun rng => Ok (SqrtEmit m (Z.to_nat entry_sr) rng))
  else if jk_trace then Ok (SqrtJk m)
  else bind (cordiv_new ext 4 rng_name 4) (fun kn => Ok (SqrtCordiv m (snd kn)))))).

(** metric.py:70-85, 111-129: the mode is checked, by Stability twice. *)
Definition progerror_new (mode_name : string) (scale source : Q) : result (mode * Q) :=
  bind (mode_parse mode_name) (fun m => Ok (m, pe_source scale source)).

(** ** Binary-interfaced layers *)

(** linear.py:345-354, 537-546, 700-709: weight and bias of torch.nn.Linear, possibly replaced. [weight_init], [bias_init]: what
    torch.nn.Linear draws. bias_ext is ignored without bias. *)
Definition lin_params (ni no : nat) (bias : bool) (weight_ext : option (list (list Q))) (bias_ext : option (list Q))
           (weight_init : list (list Q)) (bias_init : list Q) : result (list (list Q) * option (list Q)) :=
  bind (match weight_ext with
        | None => Ok weight_init
        | Some we => if shape2 no ni we then Ok we else Err AssertionError
        end) (fun w =>
  if bias then
    match bias_ext with
    | None => Ok (w, Some bias_init)
    | Some be => if (length be =? no)%nat then Ok (w, Some be) else Err AssertionError
    end
  else Ok (w, None)).

(** linear.py:325-338 (conv.py repeats it): the assertions of HUBLinear after the temporal coding check. *)
Definition hub_checks (qi qw : Q) (rnd : string) (signmag : bool) : result rounding :=
  if negb (qgt qi 0 && Qle_bool qi 1) then Err AssertionError else
  if negb (qgt qw 0 && Qle_bool qw 1) then Err AssertionError else
  bind (rounding_parse rnd) (fun r => if signmag then Ok r else Err AssertionError).

(** linear.py:318-323. *)
Definition temporal_rng (name : string) : bool := match rng_parse name with Ok k => is_tc k | Err _ => false end.

Record hub_layer : Type := {
  hl_cfg : hub_cfg; hl_widthi : nat; hl_widthw : nat; hl_round : rounding; hl_qi : Q; hl_qw : Q;
  hl_weight : list (list Q); hl_bias : option (list Q) }.
(** linear.py:303-406: HUBLinear. [cycle] = None makes min() raise (:316), although :344 has a branch for it. *)
Definition hublin_new (exti extw : rng_ext) (ni no : nat) (bias : bool) (weight_ext : option (list (list Q))) (bias_ext : option (list Q))
           (weight_init : list (list Q)) (bias_init : list Q) (widthi widthw : nat) (rngi rngw : string) (qi qw : Q)
           (cycle : option Z) (rnd : string) (signmag : bool) : result hub_layer :=
  match cycle with
  | None => Err TypeError
  | Some _ =>
      if temporal_rng rngi && temporal_rng rngw then Err AssertionError else
      bind (hub_checks qi qw rnd signmag) (fun r =>
      bind (lin_params ni no bias weight_ext bias_ext weight_init bias_init) (fun p =>
      bind (hub_new exti extw widthi widthw rngi rngw cycle) (fun c =>
      Ok {| hl_cfg := c; hl_widthi := widthi; hl_widthw := widthw; hl_round := r; hl_qi := qi; hl_qw := qw;
            hl_weight := fst p; hl_bias := snd p |})))
  end.
(** linear.py:412-420. [None]: a scale is 0. *)
Definition hublin_forward (l : hub_layer) (input : list (list Q)) : result (option (list (list Q))) :=
  bind (rshift_offset (concat input) (concat (hl_weight l)) (Z.of_nat (hl_widthi l) - 1) (Z.of_nat (hl_widthw l) - 1)
                      (hl_round l) (hl_qi l) (hl_qw l)) (fun o =>
  Ok (match o with
      | None => None
      | Some (ri, rw, ro) => Some (hub_forward (hl_cfg l) ri rw ro input (hl_weight l) (hl_bias l))
      end)).

(** linear.py:531-558: FXPLinear checks neither the rounding name nor the quantiles. The rounding is kept as parsed; [None]: a name
    rshift_offset does not know, for which it does not round at all (utils.py:228-236; the result of such a layer is not modelled). *)
Record fxp_layer : Type := {
  fl_widthi : nat; fl_widthw : nat; fl_round : option rounding; fl_qi : Q; fl_qw : Q; fl_weight : list (list Q); fl_bias : option (list Q) }.
Definition fxplin_new (ni no : nat) (bias : bool) (weight_ext : option (list (list Q))) (bias_ext : option (list Q))
           (weight_init : list (list Q)) (bias_init : list Q) (widthi widthw : nat) (qi qw : Q) (rnd : string) : result fxp_layer :=
  bind (lin_params ni no bias weight_ext bias_ext weight_init bias_init) (fun p =>
  Ok {| fl_widthi := widthi; fl_widthw := widthw; fl_round := match rounding_parse rnd with Ok r => Some r | Err _ => None end;
        fl_qi := qi; fl_qw := qw; fl_weight := fst p; fl_bias := snd p |}).

(** linear.py:666-708, 710-750: TLUTLinear with its parameters. *)
Definition tlutlin_new (ni no : nat) (bias : bool) (weight_ext : option (list (list Q))) (bias_ext : option (list Q))
           (weight_init : list (list Q)) (bias_init : list Q) (temporal formati formatw : string) (widthi widthw widtht : nat) (qi qw : Q)
           (cycle : option Z) (rnd : string) (signmag : bool) : result (tlut_cfg * (list (list Q) * option (list Q))) :=
  bind (tlut_new temporal formati formatw widthi widthw widtht qi qw cycle rnd signmag) (fun c =>
  bind (lin_params ni no bias weight_ext bias_ext weight_init bias_init) (fun p => Ok (c, p))).

(** ** Binary-interfaced convolutions *)

(** The checks of torch.nn.Conv2d, before anything else; groups >= 1. *)
Definition conv2d_base (ci co groups : nat) (padding_mode : string) : result unit :=
  if negb ((ci mod groups =? 0) && (co mod groups =? 0))%nat then Err ValueError else
  if negb (padding_mode_known padding_mode) then Err ValueError else Ok tt.
(** conv.py:424-427, 556-557, 661-662: groups must be 1, padding_mode 'zeros' (case sensitive). *)
Definition conv2d_supported (groups : nat) (padding_mode : string) : result unit :=
  if negb (groups =? 1)%nat then Err AssertionError else
  if negb (padding_mode =? "zeros")%string then Err AssertionError else Ok tt.
(** conv.py:429-438, 565-574, 697-706. *)
Definition conv_params (ci co : nat) (kernel : nat * nat) (bias : bool) (weight_ext : option (list (image Q))) (bias_ext : option (list Q))
           (weight_init : list (image Q)) (bias_init : list Q) : result (list (image Q) * option (list Q)) :=
  bind (match weight_ext with
        | None => Ok weight_init
        | Some we => if shape4 co ci (fst kernel) (snd kernel) we then Ok we else Err AssertionError
        end) (fun w =>
  if bias then
    match bias_ext with
    | None => Ok (w, Some bias_init)
    | Some be => if (length be =? co)%nat then Ok (w, Some be) else Err AssertionError
    end
  else Ok (w, None)).

(** conv.py:357-492: HUBConv2d: the order is that of HUBLinear with groups and padding_mode (:424-427) before the parameters. The
    outcome holds the table, the rounding and the parameters. *)
Definition hubconv_new (exti extw : rng_ext) (ci co : nat) (kernel : nat * nat) (groups : nat) (bias : bool) (padding_mode : string)
           (weight_ext : option (list (image Q))) (bias_ext : option (list Q)) (weight_init : list (image Q)) (bias_init : list Q)
           (widthi widthw : nat) (rngi rngw : string) (qi qw : Q) (cycle : option Z) (rnd : string) (signmag : bool)
  : result (hub_cfg * rounding * (list (image Q) * option (list Q))) :=
  bind (conv2d_base ci co groups padding_mode) (fun _ =>
  match cycle with
  | None => Err TypeError
  | Some _ =>
      if temporal_rng rngi && temporal_rng rngw then Err AssertionError else
      bind (hub_checks qi qw rnd signmag) (fun r =>
      bind (conv2d_supported groups padding_mode) (fun _ =>
      bind (conv_params ci co kernel bias weight_ext bias_ext weight_init bias_init) (fun p =>
      bind (hub_new exti extw widthi widthw rngi rngw cycle) (fun c => Ok (c, r, p)))))
  end).
(** conv.py:526-582: FXPConv2d. *)
Definition fxpconv_new (ci co : nat) (kernel : nat * nat) (groups : nat) (bias : bool) (padding_mode : string)
           (weight_ext : option (list (image Q))) (bias_ext : option (list Q)) (weight_init : list (image Q)) (bias_init : list Q)
           (rnd : string) : result (option rounding * (list (image Q) * option (list Q))) :=
  bind (conv2d_base ci co groups padding_mode) (fun _ =>
  bind (conv2d_supported groups padding_mode) (fun _ =>
  bind (conv_params ci co kernel bias weight_ext bias_ext weight_init bias_init) (fun p =>
  Ok (match rounding_parse rnd with Ok r => Some r | Err _ => None end, p)))).
(** conv.py:625-748: TLUTConv2d. *)
Definition tlutconv_new (ci co : nat) (kernel : nat * nat) (groups : nat) (bias : bool) (padding_mode : string)
           (weight_ext : option (list (image Q))) (bias_ext : option (list Q)) (weight_init : list (image Q)) (bias_init : list Q)
           (temporal formati formatw : string) (widthi widthw widtht : nat) (qi qw : Q) (cycle : option Z) (rnd : string) (signmag : bool)
  : result (tlut_cfg * (list (image Q) * option (list Q))) :=
  bind (conv2d_base ci co groups padding_mode) (fun _ =>
  bind (conv2d_supported groups padding_mode) (fun _ =>
  bind (tlut_new temporal formati formatw widthi widthw widtht qi qw cycle rnd signmag) (fun c =>
  bind (conv_params ci co kernel bias weight_ext bias_ext weight_init bias_init) (fun p => Ok (c, p))))).
