(** Proofs for C75. *)
From Coq Require Import String Lqa.
Require Import Verif.BaseLemmas Verif.GenProof Verif.LinearModel Verif.LinearProof Verif.Spec Verif.HubErrSpec Verif.BinConvSpec Verif.ConvErrSpec Verif.UtilsModel Verif.UtilsProof Verif.HubModel Verif.HubProof Verif.TlutProof Verif.ConvModel Verif.ConvProof Verif.BinConvModel Verif.NameSpec Verif.BinConvProof Verif.NameProof Verif.NewModel Verif.NewSpec Verif.NewProof Verif.HubErrProof.
Open Scope Z_scope.

Lemma all_entries_flat4 t : all_entries t = flat4 t.
Proof.
  unfold all_entries, flat4. induction t as [|a t IH]; [reflexivity|]. cbn [concat map]. rewrite !concat_app, IH. f_equal.
  unfold flat_filter. clear. induction a as [|c a IH]; [reflexivity|]. cbn [concat map]. rewrite concat_app, IH. reflexivity.
Qed.
Lemma entry_flat4 N C H W t n k y x : tensor_ok anyq N C H W t -> (n < N)%nat -> (k < C)%nat -> (y < H)%nat -> (x < W)%nat -> In (entry4 0%Q t n k y x) (flat4 t).
Proof.
  intros T Hn Hk Hy Hx. destruct (bweight_ok _ _ _ _ _ T) as [S E]. rewrite <- (E n k y x Hn Hk Hy Hx).
  apply (entry_in_concat N (C * (H * W))); [exact S|exact Hn|]. apply tap_index_lt; assumption.
Qed.
Lemma under_all_in g N C H W ho wo input v : tensor_ok anyq N C H W input ->
  In v (under_all (bv_kernel g) (bv_stride g) (bv_dil g) (bv_pad g) N C H W ho wo input) -> v = 0%Q \/ In v (flat4 input).
Proof.
  intros T Hv. unfold under_all in Hv.
  apply in_flat_map in Hv. destruct Hv as (n & Hn & Hv). apply in_flat_map in Hv. destruct Hv as (y & Hy & Hv).
  apply in_flat_map in Hv. destruct Hv as (x & Hx & Hv). apply in_flat_map in Hv. destruct Hv as (k & Hk & Hv).
  apply in_flat_map in Hv. destruct Hv as (i & Hi & Hv). apply in_map_iff in Hv. destruct Hv as (j & <- & Hj).
  apply in_seq in Hn, Hk. unfold under, surrounded. destruct (_ && _)%bool eqn:B; [right|left; reflexivity].
  apply (entry_flat4 N C H W); [exact T|lia|lia|lia|lia].
Qed.
Lemma rows_bound g N C H W ho wo input X r i : bconv_geom g C H W ho wo -> (1 <= N)%nat -> tensor_ok anyq N C H W input ->
  (forall v, In v (under_all (bv_kernel g) (bv_stride g) (bv_dil g) (bv_pad g) N C H W ho wo input) -> (Qabs v <= X)%Q) ->
  (r < N * (ho * wo))%nat -> (i < taps C (bv_kernel g))%nat -> (Qabs (qentry (brows g ho wo input) r i) <= X)%Q.
Proof.
  intros G HN T HX Hr Hi. destruct (bconv_rows_ok g N C H W ho wo input G HN T) as (_ & Sr & _).
  apply HX. rewrite <- (brows_all g N C H W ho wo input G HN T). apply (entry_in_concat _ _ _ _ _ Sr Hr Hi).
Qed.
Lemma max_nonneg l X : is_max_abs l X -> (0 <= X)%Q.
Proof. intros [(y & _ & E) _]. rewrite <- E. apply Qabs_nonneg. Qed.
Lemma under_max g N C H W ho wo input X v : tensor_ok anyq N C H W input -> is_max_abs (flat4 input) X ->
  In v (under_all (bv_kernel g) (bv_stride g) (bv_dil g) (bv_pad g) N C H W ho wo input) -> (Qabs v <= X)%Q.
Proof.
  intros T HX Hv. destruct (under_all_in _ _ _ _ _ _ _ _ _ T Hv) as [-> | HI].
  - change (Qabs 0) with 0%Q. apply (max_nonneg _ _ HX).
  - destruct HX as [_ F]. rewrite Forall_forall in F. apply F, HI.
Qed.
Lemma weight_bound no C kernel weight Wm o i : tensor_ok anyq no C (fst kernel) (snd kernel) weight -> is_max_abs (flat4 weight) Wm ->
  (o < no)%nat -> (i < taps C kernel)%nat -> (Qabs (qentry (map flat_filter weight) o i) <= Wm)%Q.
Proof.
  intros T HW Ho Hi. destruct (bweight_ok _ _ _ _ _ T) as [S _]. destruct HW as [_ F]. rewrite Forall_forall in F. apply F.
  apply (entry_in_concat _ _ _ _ _ S Ho Hi).
Qed.
Lemma conv_entry_dot g N C H W ho wo no input weight n o y x : bconv_geom g C H W ho wo -> (1 <= N)%nat -> tensor_ok anyq N C H W input ->
  tensor_ok anyq no C (fst (bv_kernel g)) (snd (bv_kernel g)) weight -> (n < N)%nat -> (o < no)%nat -> (y < ho)%nat -> (x < wo)%nat ->
  (conv_entry (bv_kernel g) (bv_stride g) (bv_dil g) (bv_pad g) C H W input weight n o y x ==
   dotq (taps C (bv_kernel g)) (qentry (brows g ho wo input) (row_index ho wo n y x)) (qentry (map flat_filter weight) o))%Q.
Proof.
  intros G HN T Tw Hn Ho Hy Hx. symmetry. exact (tap_prod_rows (fun v => v) (fun v => v) g N C H W ho wo no input weight n o y x G HN T Tw Hn Ho Hy Hx).
Qed.
(** Perturbed operands, uniformly. *)
Lemma dot_uniform n x x' y y' dx dy X Y : (0 <= dx)%Q -> (0 <= dy)%Q ->
  (forall i, (i < n)%nat -> (Qabs (x i) <= X)%Q /\ (Qabs (x i - x' i) <= dx)%Q) ->
  (forall i, (i < n)%nat -> (Qabs (y i) <= Y)%Q /\ (Qabs (y i - y' i) <= dy)%Q) ->
  (Qabs (dotq n x' y' - dotq n x y) <= inject_Z (Z.of_nat n) * (dx * Y + (X + dx) * dy))%Q.
Proof.
  intros D0 D1 Hx Hy. eapply Qle_trans; [apply (dot_error n x x' y y' dx dy D0); [intros i Hi; apply Hx, Hi|intros i Hi; apply Hy, Hi]|].
  set (K := (dx * Y + (X + dx) * dy)%Q).
  assert (T : forall i, (i < n)%nat -> (dx * Qabs (y i) + (Qabs (x i) + dx) * dy <= K)%Q).
  { intros i Hi. destruct (Hx i Hi) as [A _]. destruct (Hy i Hi) as [B _]. unfold K. apply Qplus_le_compat.
    - rewrite !(Qmult_comm dx). apply Qmult_le_compat_r; assumption.
    - apply Qmult_le_compat_r; [lra|exact D1]. }
  clear Hx Hy. clearbody K. set (f := fun i => _) in *. change (map f (seq 0 n)) with (tab n f). unfold f in T. 
  assert (T' : forall i, (i < n)%nat -> (f i <= K)%Q) by exact T. clear T. clearbody f.
  induction n as [|n IH]; [change (0 <= 0 * K)%Q; lra|]. rewrite tab_S, qsum_app. cbn [qsum].
  specialize (IH ltac:(intros; apply T'; lia)). pose proof (T' n ltac:(lia)). rewrite Nat2Z.inj_succ. unfold Z.succ. rewrite inject_Z_plus.
  change (inject_Z 1) with 1%Q. lra.
Qed.
(** The algebra of rounding up. *)
Lemma ceil_algebra M p q X W N wz : (1 <= M)%Q -> (0 < p)%Q -> (0 < q)%Q -> (M * p <= 2 * X)%Q -> (M * q <= 2 * W)%Q -> (0 <= N)%Q -> (0 <= wz)%Q ->
  (N * wz * (M * p * q) + N * (p * W + (X + p) * q) <= N * (4 * (wz + 2)) * X * W / M)%Q.
Proof.
  intros M1 Pi Pw UX UW N0 w0.
  assert (Mp : (0 < M * p)%Q) by (apply Qmult_lt_0_compat; lra). assert (Mq : (0 < M * q)%Q) by (apply Qmult_lt_0_compat; lra).
  assert (X0 : (0 < X)%Q) by lra. assert (W0 : (0 < W)%Q) by lra.
  assert (G : (wz * (M * p * q) + (p * W + (X + p) * q) <= 4 * (wz + 2) * X * W / M)%Q).
  { apply Qle_shift_div_l; [lra|].
    assert (A1 : (M * p * (M * q) <= 2 * X * (2 * W))%Q) by (apply Qmult_le_compat_nonneg; split; lra).
    assert (A2 : (M * p * W <= 2 * X * W)%Q) by (apply Qmult_le_compat_r; lra).
    assert (A3 : (X * (M * q) <= X * (2 * W))%Q) by (rewrite !(Qmult_comm X); apply Qmult_le_compat_r; lra).
    assert (A4 : (p * (M * q) <= M * p * (M * q))%Q) by (apply Qmult_le_compat_r; [|lra]; assert (A0 : (1 * p <= M * p)%Q) by (apply Qmult_le_compat_r; lra); lra).
    assert (A5 : (wz * (M * p * (M * q)) <= wz * (2 * X * (2 * W)))%Q) by (rewrite !(Qmult_comm wz); apply Qmult_le_compat_r; lra).
    assert (E1 : ((wz * (M * p * q) + (p * W + (X + p) * q)) * M ==
                  wz * (M * p * (M * q)) + (M * p * W + X * (M * q) + p * (M * q)))%Q) by ring. rewrite E1.
    assert (E2 : (4 * (wz + 2) * X * W == wz * (2 * X * (2 * W)) + 8 * (X * W))%Q) by ring. rewrite E2.
    assert (E3 : (2 * X * (2 * W) == 4 * (X * W))%Q) by ring. rewrite E3 in *.
    assert (E4 : (X * (2 * W) == 2 * (X * W))%Q) by ring. rewrite E4 in A3.
    assert (E5 : (2 * X * W == 2 * (X * W))%Q) by ring. rewrite E5 in A2. lra. }
  assert (E6 : (N * wz * (M * p * q) + N * (p * W + (X + p) * q) == N * (wz * (M * p * q) + (p * W + (X + p) * q)))%Q) by ring.
  rewrite E6.
  assert (E7 : (N * (4 * (wz + 2)) * X * W / M == N * (4 * (wz + 2) * X * W / M))%Q) by (field; lra). rewrite E7.
  rewrite !(Qmult_comm N). apply Qmult_le_compat_r; assumption.
Qed.
(** The shifts exist unless an operand is all zero. *)
Lemma shifts_exist xs ws wi ww r qi qw X W : is_max_abs xs X -> is_max_abs ws W -> (qi == 1)%Q -> (qw == 1)%Q -> (0 < X)%Q -> (0 < W)%Q ->
  exists ri rw ro, rshift_offset xs ws wi ww r qi qw = Ok (Some (ri, rw, ro)).
Proof.
  intros HX HW Hqi Hqw X0 W0.
  assert (NEi : xs <> []) by (intros E; rewrite E in HX; destruct HX as [(y & [] & _) _]).
  assert (NEw : ws <> []) by (intros E; rewrite E in HW; destruct HW as [(y & [] & _) _]).
  destruct (quantile_scale_spec xs qi X HX) as [Ei _]. destruct (quantile_scale_spec ws qw W HW) as [Ew _].
  specialize (Ei Hqi). specialize (Ew Hqw).
  destruct (rshift_offset_spec xs ws wi ww r qi qw NEi NEw) as [_ Z1].
  destruct Z1 as (ri & rw & ro & E & _); [rewrite Ei; lra|rewrite Ew; lra|]. exists ri, rw, ro. exact E.
Qed.
Lemma shifts_none xs ws wi ww r qi qw X W : is_max_abs xs X -> is_max_abs ws W -> (qi == 1)%Q -> (qw == 1)%Q -> (X == 0)%Q \/ (W == 0)%Q ->
  rshift_offset xs ws wi ww r qi qw = Ok None.
Proof.
  intros HX HW Hqi Hqw H0.
  assert (NEi : xs <> []) by (intros E; rewrite E in HX; destruct HX as [(y & [] & _) _]).
  assert (NEw : ws <> []) by (intros E; rewrite E in HW; destruct HW as [(y & [] & _) _]).
  destruct (quantile_scale_spec xs qi X HX) as [Ei _]. destruct (quantile_scale_spec ws qw W HW) as [Ew _].
  specialize (Ei Hqi). specialize (Ew Hqw).
  destruct (rshift_offset_spec xs ws wi ww r qi qw NEi NEw) as [Z0 _]. apply Z0. rewrite Ei, Ew. exact H0.
Qed.
Lemma kern_tensor co ci kh kw (t : list (image Q)) : kern co ci kh kw t -> tensor_ok anyq co ci kh kw t.
Proof.
  intros [L F]. split; [exact L|]. eapply Forall_impl; [|exact F]. intros f [Lf Ff]. split; [exact Lf|].
  eapply Forall_impl; [|exact Ff]. intros m [Lm Fm]. split; [exact Lm|]. eapply Forall_impl; [|exact Fm]. intros r Lr. split; [exact Lr|].
  apply Forall_forall. intros. exact Logic.I.
Qed.
Lemma conv_parts co ci kernel (bias : bool) we be wi bi weight bo :
  replaced (kern co ci (fst kernel) (snd kernel)) we wi weight -> replaced_if bias (vec co) be bi bo ->
  kern co ci (fst kernel) (snd kernel) wi /\ vec co bi ->
  tensor_ok anyq co ci (fst kernel) (snd kernel) weight /\ bias_ok co bo.
Proof.
  intros Rw Rb [Iw Ib]. split.
  - apply kern_tensor. destruct Rw as [[_ ->]|[_ R]]; assumption.
  - destruct Rb as [[_ ->]|(_ & x & -> & R)]; [exact Logic.I|]. destruct R as [[_ ->]|[_ R]]; [exact Ib|exact R].
Qed.

Lemma rounding_unique s a b : names_rounding s a -> names_rounding s b -> a = b.
Proof. intros A B. apply rounding_ok in A, B. congruence. Qed.

Section HubConv.
  Variables (exti extw : rng_ext) (w C no : nat) (g : bconv) (groups : nat) (bias : bool) (pm : string) (we : option (list (image Q))) (be : option (list Q))
    (wi : list (image Q)) (bi : list Q) (rngi rngw rnd : string) (qi qw : Q) (cyc : Z) (c : hub_cfg) (r : rounding) (weight : list (image Q)) (bo : option (list Q))
    (ki kw : rng_kind).
  Hypothesis Hnew : hubconv_new exti extw C no (bv_kernel g) groups bias pm we be wi bi (S w) (S w) rngi rngw qi qw (Some cyc) rnd true = Ok (c, r, (weight, bo)).
  Hypothesis Hinit : kern no C (fst (bv_kernel g)) (snd (bv_kernel g)) wi /\ vec no bi.
  Hypothesis Hw : (1 <= w <= 30)%nat.
  Hypothesis Hxi : ext_ok exti w.
  Hypothesis Hxw : ext_ok extw w.
  Hypothesis Hki : rng_parse rngi = Ok ki.
  Hypothesis Hkw : rng_parse rngw = Ok kw.
  Hypothesis Hli : ki <> KLfsr.
  Hypothesis Hlw : kw <> KLfsr.
  Hypothesis Hsob : (if is_tc kw then ki else kw) = KSobol.
  Hypothesis Hcyc : 1 <= cyc.
  Hypothesis Hqi : (qi == 1)%Q.
  Hypothesis Hqw : (qw == 1)%Q.
  Let cycle := Z.min cyc (p2 w).

  Lemma hubconv_parts : tensor_ok anyq no C (fst (bv_kernel g)) (snd (bv_kernel g)) weight /\ bias_ok no bo /\
    hub_new exti extw (S w) (S w) rngi rngw (Some cyc) = Ok c /\ names_rounding rnd r.
  Proof.
    destruct (hubconv_outcomes exti extw C no (bv_kernel g) groups bias pm we be wi bi (S w) (S w) rngi rngw qi qw (Some cyc) rnd true) as [H _].
    apply H in Hnew. destruct Hnew as (_ & _ & _ & _ & Rr & Rw & Rb & N).
    destruct (conv_parts _ _ _ _ _ _ _ _ _ _ Rw Rb Hinit) as [A B]. auto.
  Qed.
  Theorem hubconv_error : forall N H W ho wo input X Wm,
    bconv_geom g C H W ho wo -> (1 <= N)%nat -> tensor_ok anyq N C H W input ->
    is_max_abs (all_entries input) X -> is_max_abs (all_entries weight) Wm -> (0 < X)%Q -> (0 < Wm)%Q ->
    exists ri rw ro out, rshift_offset (all_entries input) (all_entries weight) (Z.of_nat w) (Z.of_nat w) r qi qw = Ok (Some (ri, rw, ro)) /\
    hubconv c g (S w) (S w) r qi qw input weight bo = Ok (Some out) /\ tensor_ok anyq N no ho wo out /\
    forall n o y x, (n < N)%nat -> (o < no)%nat -> (y < ho)%nat -> (x < wo)%nat ->
    let dx := (hub_slack r cycle w * Qpower 2 ri)%Q in
    let dw := (hub_slack r cycle w * Qpower 2 rw)%Q in
    let t := inject_Z (Z.of_nat (taps C (bv_kernel g))) in
    (Qabs (entry4 0%Q out n o y x - (conv_entry (bv_kernel g) (bv_stride g) (bv_dil g) (bv_pad g) C H W input weight n o y x + bias_entry bo o)) <=
     t * inject_Z (Z.of_nat w) * Qpower 2 (Z.of_nat w + ri + rw) + t * (dx * Wm + (X + dx) * dw))%Q.
  Proof.
    intros N H W ho wo input X Wm G HN T HX HW X0 W0. rewrite ?all_entries_flat4 in *.
    destruct hubconv_parts as (Tw & Tb & Ec & _).
    destruct (shifts_exist _ _ (Z.of_nat w) (Z.of_nat w) r qi qw X Wm HX HW Hqi Hqw X0 W0) as (ri & rw & ro & Er).
    assert (Ht : is_tc ki && is_tc kw = false).
    { destruct (is_tc kw) eqn:E; [|apply andb_false_r]. rewrite Hsob. reflexivity. }
    destruct (hubconv_bound exti extw w rngi rngw ki kw cyc g N C H W ho wo no r qi qw input weight bo ri rw ro
      Hw Hxi Hxw Hki Hkw Hli Hlw Ht Hsob Hcyc G HN T Tw Tb Er) as (c' & out & Ec' & Eo & To & Bd).
    assert (c' = c) as -> by congruence.
    exists ri, rw, ro, out. split; [exact Er|]. split; [exact Eo|]. split; [exact To|].
    intros n o y x Hn Ho Hy Hx dx dw t. specialize (Bd n o y x Hn Ho Hy Hx). cbv zeta in Bd. fold cycle in Bd.
    destruct (rshift_inv _ _ _ _ _ _ _ _ _ _ Er) as [Ni Nw].
    destruct (quantile_scale_spec (flat4 input) qi X HX) as [Ei _]. destruct (quantile_scale_spec (flat4 weight) qw Wm HW) as [Ew _].
    specialize (Ei Hqi). specialize (Ew Hqw).
    assert (C1 : 1 <= cycle) by (unfold cycle; pose proof (p2_ge_1 w); lia).
    assert (Q0 : forall v, (0 <= hub_slack r cycle w * Qpower 2 v)%Q).
    { intros v. apply Qmult_le_0_compat; [pose proof (slack_half r cycle w); lra|]. apply Qlt_le_weak, (qpow2_pos v). }
    set (row := qentry (brows g ho wo input) (row_index ho wo n y x)). set (col := qentry (map flat_filter weight) o).
    assert (Hr := row_index_lt N ho wo n y x Hn Hy Hx).
    assert (P : (Qabs (dotq (taps C (bv_kernel g)) (fun i => sm_quant cycle ri (row i)) (fun i => sm_quant cycle rw (col i)) - dotq (taps C (bv_kernel g)) row col) <=
       t * (dx * Wm + (X + dx) * dw))%Q).
    { apply dot_uniform; [apply Q0|apply Q0| |]; intros i Hi.
      - assert (B : (Qabs (row i) <= X)%Q).
        { apply (rows_bound g N C H W ho wo); try assumption. intros v Hv. apply (under_max g N C H W ho wo input X v T HX Hv). }
        split; [exact B|]. apply (sm_quant_error w r ri _ cycle _ C1 Ni). rewrite Ei. exact B.
      - assert (B : (Qabs (col i) <= Wm)%Q) by (apply (weight_bound no C (bv_kernel g)); assumption).
        split; [exact B|]. apply (sm_quant_error w r rw _ cycle _ C1 Nw). rewrite Ew. exact B. }
    pose proof (tap_prod_rows (sm_quant cycle ri) (sm_quant cycle rw) g N C H W ho wo no input weight n o y x G HN T Tw Hn Ho Hy Hx) as E1.
    pose proof (conv_entry_dot g N C H W ho wo no input weight n o y x G HN T Tw Hn Ho Hy Hx) as E2.
    unfold tap_prod in E1. rewrite <- E1 in Bd. rewrite E2. fold row col in Bd |- *. fold (taps C (bv_kernel g)) in Bd. rewrite inject_Z_mult in Bd. fold t in Bd.
    set (D := dotq _ row col) in *. set (D' := dotq _ (fun i => sm_quant cycle ri (row i)) _) in *. set (b := bias_entry bo o) in *. set (v := entry4 _ _ _ _ _ _) in *.
    assert (E : (v - (D + b) == (v - (D' + b)) + (D' - D))%Q) by ring. rewrite E.
    eapply Qle_trans; [apply Qabs_triangle|]. apply Qplus_le_compat; assumption.
  Qed.
  Theorem hubconv_none : forall N H W ho wo input X Wm, bconv_geom g C H W ho wo -> (1 <= N)%nat -> tensor_ok anyq N C H W input ->
    is_max_abs (all_entries input) X -> is_max_abs (all_entries weight) Wm -> (X == 0)%Q \/ (Wm == 0)%Q ->
    hubconv c g (S w) (S w) r qi qw input weight bo = Ok None.
  Proof.
    intros N H W ho wo input X Wm G HN T HX HW H0. rewrite ?all_entries_flat4 in *. unfold hubconv.
    rewrite (shifts_none _ _ _ _ r qi qw X Wm HX HW Hqi Hqw H0). cbn [bind]. unfold bconv_apply.
    destruct (bconv_rows_ok g N C H W ho wo input G HN T) as (-> & _). reflexivity.
  Qed.
  Theorem hubconv_converges : named rnd ["ceil"]%string -> p2 w <= cyc -> forall N H W ho wo input X Wm,
    bconv_geom g C H W ho wo -> (1 <= N)%nat -> tensor_ok anyq N C H W input ->
    is_max_abs (all_entries input) X -> is_max_abs (all_entries weight) Wm -> (0 < X)%Q -> (0 < Wm)%Q ->
    exists out, hubconv c g (S w) (S w) r qi qw input weight bo = Ok (Some out) /\ tensor_ok anyq N no ho wo out /\
    forall n o y x, (n < N)%nat -> (o < no)%nat -> (y < ho)%nat -> (x < wo)%nat ->
    (Qabs (entry4 0%Q out n o y x - (conv_entry (bv_kernel g) (bv_stride g) (bv_dil g) (bv_pad g) C H W input weight n o y x + bias_entry bo o)) <=
     inject_Z (Z.of_nat (taps C (bv_kernel g))) * (4 * (inject_Z (Z.of_nat w) + 2)) * X * Wm / inject_Z (p2 w))%Q.
  Proof.
    intros Hr Hc N H W ho wo input X Wm G HN T HX HW X0 W0.
    destruct (hubconv_error N H W ho wo input X Wm G HN T HX HW X0 W0) as (ri & rw & ro & out & Er & Eo & To & Bd).
    exists out. split; [exact Eo|]. split; [exact To|]. intros n o y x Hn Ho Hy Hx. specialize (Bd n o y x Hn Ho Hy Hx). cbv zeta in Bd.
    destruct hubconv_parts as (_ & _ & _ & Nr).
    assert (R : r = RCeil) by (apply (rounding_unique rnd); [exact Nr|right; left; auto]). rewrite R in *.
    assert (Ecy : cycle = p2 w) by (unfold cycle; lia). rewrite Ecy in Bd.
    destruct (rshift_inv _ _ _ _ _ _ _ _ _ _ Er) as [Ni Nw]. cbn [normalised] in Ni, Nw.
    destruct (quantile_scale_spec _ qi X HX) as [Ei _]. destruct (quantile_scale_spec _ qw Wm HW) as [Ew _].
    specialize (Ei Hqi). specialize (Ew Hqw).
    pose proof (qpow2_pos ri) as Pi. pose proof (qpow2_pos rw) as Pw.
    assert (PQ : (qpow2 (Z.of_nat w) == inject_Z (p2 w))%Q) by (apply qpow2_Z; lia).
    assert (Hs : (hub_slack RCeil (p2 w) w == 1)%Q).
    { unfold hub_slack. cbn [top_ratio]. replace (p2 w - 1) with (p2 w + (-1)) by lia. rewrite inject_Z_plus. set (M := inject_Z (p2 w)). clearbody M. change (inject_Z (-1)) with (-1)%Q.
      destruct (Qle_bool_spec (1 # 2) (1 * M - (M + -1))); lra. }
    set (M := inject_Z (p2 w)) in *.
    assert (M1 : (1 <= M)%Q) by (change 1%Q with (inject_Z 1); apply inject_Z_le_iff; apply p2_ge_1).
    set (sl := hub_slack RCeil (p2 w) w) in *. clearbody sl.
    set (p := qpow2 ri) in *. set (q := qpow2 rw) in *. change (Qpower 2 ri) with p in *. change (Qpower 2 rw) with q in *.
    assert (Ep : (Qpower 2 (Z.of_nat w + ri + rw) == M * p * q)%Q).
    { change (Qpower 2) with qpow2. rewrite !qpow2_add, PQ. reflexivity. }
    clearbody p q M.
    assert (Up : forall s t, (0 < t)%Q -> above_and_upto (Z.of_nat w) (s / t) -> (M * t <= 2 * s)%Q).
    { intros s t Ht [U _]. change (Qpower 2 (Z.of_nat w - 1)) with (qpow2 (Z.of_nat w - 1)) in U. unfold Z.sub in U. rewrite qpow2_add, PQ in U.
      change (qpow2 (- (1))) with (1 # 2)%Q in U. assert (E : (s == s / t * t)%Q) by (field; lra). rewrite E. clear E.
      assert (U' : (M * (1 # 2) * t <= s / t * t)%Q) by (apply Qmult_le_compat_r; lra). lra. }
    pose proof (Up _ p Pi Ni) as UX. pose proof (Up _ q Pw Nw) as UW. clear Up. rewrite Ei in UX. rewrite Ew in UW.
    rewrite Ep, Hs, !Qmult_1_l in Bd. eapply Qle_trans; [exact Bd|]. apply ceil_algebra; try assumption.
    - change 0%Q with (inject_Z 0). apply inject_Z_le_iff. lia.
    - change 0%Q with (inject_Z 0). apply inject_Z_le_iff. lia.
  Qed.
End HubConv.

(** The default rounding clips the largest operand, whatever the width: a single pixel and a single tap of 7/5. *)
Definition one_tap : bconv := {| bv_kernel := (1, 1); bv_stride := (1, 1); bv_pad := (0, 0); bv_dil := (1, 1) |}%nat.
Theorem hubconv_round_clips : forall exti extw w be wi bi rngi rngw rnd cyc c r weight bo ki kw,
  hubconv_new exti extw 1 1 (1, 1)%nat 1 false "zeros" (Some [[[[7 # 5]]]]%Q) be wi bi (S w) (S w) rngi rngw 1 1 (Some cyc) rnd true = Ok (c, r, (weight, bo)) ->
  named rnd ["round"]%string -> (1 <= w <= 30)%nat -> ext_ok exti w -> ext_ok extw w -> rng_parse rngi = Ok ki -> rng_parse rngw = Ok kw ->
  ki <> KLfsr -> kw <> KLfsr -> is_tc ki && is_tc kw = false -> 1 <= cyc ->
  exists v, hubconv c one_tap (S w) (S w) r 1 1 [[[[7 # 5]]]]%Q weight bo = Ok (Some [[[[v]]]]) /\ (v < 1)%Q.
Proof.
  intros exti extw w be wi bi rngi rngw rnd cyc c r weight bo ki kw Hnew Hr Hw Xi Xw Ki Kw Li Lw Ht Hc.
  destruct (hubconv_outcomes exti extw 1 1 (1, 1)%nat 1 false "zeros" (Some [[[[7 # 5]]]]%Q) be wi bi (S w) (S w) rngi rngw 1 1 (Some cyc) rnd true) as [H _].
  apply H in Hnew. destruct Hnew as (_ & _ & _ & _ & Rr & Rw & Rb & N).
  assert (Er : r = RRound) by (apply (rounding_unique rnd); [exact Rr|left; auto]). subst r.
  assert (Ew : weight = [[[[7 # 5]]]]%Q) by (destruct Rw as [[D _]|[D _]]; [discriminate|congruence]). subst weight.
  assert (Eb : bo = None) by (destruct Rb as [[_ E]|[D _]]; [exact E|discriminate]). subst bo.
  destruct (hub_new_ok exti extw w rngi rngw ki kw cyc Hw Xi Xw Ki Kw Li Lw Ht) as (c' & Ec & Cc & Pc & Tc).
  assert (c' = c) as -> by congruence.
  unfold hubconv. replace (Z.of_nat (S w) - 1) with (Z.of_nat w) by lia.
  change (flat4 [[[[7 # 5]]]]%Q) with [7 # 5]%Q.
  assert (Er : rshift_offset [7 # 5]%Q [7 # 5]%Q (Z.of_nat w) (Z.of_nat w) RRound 1 1 = Ok (Some (- Z.of_nat w, - Z.of_nat w, Z.of_nat w))).
  { unfold rshift_offset. cbv zeta. set (s := quantile_scale [7 # 5]%Q 1). assert (Z1 : Qle_bool s 0 = false) by (vm_compute; reflexivity).
    assert (Z2 : log2_rounded RRound s = 0) by (vm_compute; reflexivity). rewrite Z1, Z2. cbn [orb]. rewrite Z.max_id. do 4 f_equal; lia. }
  rewrite Er. cbn [bind].
  pose proof (p2_ge_1 w) as P1.
  set (z := hub_mul c (- Z.of_nat w) (- Z.of_nat w) (7 # 5) (7 # 5)).
  assert (Bz : z <= p2 w - 1).
  { unfold z. rewrite hub_mul_eq. change (qsign (7 # 5)) with 1.
    destruct (hub_mag_eq (hub_cycle c) (- Z.of_nat w) (7 # 5) ltac:(lia)) as [_ R]. rewrite Cc in *.
    rewrite Tc by lia. set (m := hub_mag _ _ _) in *.
    destruct (below_laws w _ m m Pc ltac:(lia) ltac:(lia)) as (L & _). lia. }
  exists (qshr (inject_Z (z + 0)) (Z.of_nat w)). split.
  - unfold bconv_apply. change (bconv_rows one_tap [[[[7 # 5]]]]%Q) with (Ok [[7 # 5]]%Q : result (list (list Q))). cbn [bind].
    change (map flat_filter [[[[7 # 5]]]]%Q) with [[7 # 5]]%Q. unfold hub_forward. cbn [map map2 zsum add_bias]. fold z.
    set (v := qshr _ _). clearbody v. reflexivity.
  - rewrite Z.add_0_r. unfold qshr.
    assert (PQ : (qpow2 (Z.of_nat w) == inject_Z (p2 w))%Q) by (apply qpow2_Z; lia). rewrite PQ.
    assert (L1 : (inject_Z z < inject_Z (p2 w))%Q) by (apply inject_Z_lt_iff; lia).
    assert (L2 : (0 < inject_Z (p2 w))%Q) by (change 0%Q with (inject_Z 0); apply inject_Z_lt_iff; lia).
    apply Qlt_shift_div_r; [exact L2|]. lra.
Qed.

(** ** FXPConv2d *)
Lemma dot_relative_bound n X W ei ew dx dw : (0 <= X)%Q -> (0 <= W)%Q -> (0 <= dx)%Q -> (0 <= dw)%Q -> (dx <= X * ei)%Q -> (dw <= W * ew)%Q ->
  (inject_Z (Z.of_nat n) * (dx * W + (X + dx) * dw) <= inject_Z (Z.of_nat n) * X * W * (ei + (1 + ei) * ew))%Q.
Proof.
  intros X0 W0 D0 D1 Hx Hw.
  assert (A : (dx * W <= X * ei * W)%Q) by (apply Qmult_le_compat_r; assumption).
  assert (B : ((X + dx) * dw <= (X + X * ei) * (W * ew))%Q) by (apply Qmult_le_compat_nonneg; split; lra).
  assert (N0 : (0 <= inject_Z (Z.of_nat n))%Q) by (change 0%Q with (inject_Z 0); apply inject_Z_le_iff; lia).
  set (k := inject_Z (Z.of_nat n)) in *. clearbody k.
  assert (E : (k * X * W * (ei + (1 + ei) * ew) == k * (X * ei * W + (X + X * ei) * (W * ew)))%Q) by ring. rewrite E.
  rewrite !(Qmult_comm k). apply Qmult_le_compat_r; [lra|exact N0].
Qed.
Theorem fxpconv_converges : forall C no g groups bias pm we be wi bi rnd r weight bo widthi widthw qi qw,
  fxpconv_new C no (bv_kernel g) groups bias pm we be wi bi rnd = Ok (Some r, (weight, bo)) ->
  kern no C (fst (bv_kernel g)) (snd (bv_kernel g)) wi /\ vec no bi ->
  (1 <= widthi)%nat -> (1 <= widthw)%nat -> (qi == 1)%Q -> (qw == 1)%Q ->
  forall N H W ho wo input X Wm, bconv_geom g C H W ho wo -> (1 <= N)%nat -> tensor_ok anyq N C H W input ->
  is_max_abs (all_entries input) X -> is_max_abs (all_entries weight) Wm -> (0 < X)%Q -> (0 < Wm)%Q ->
  exists out, fxpconv g widthi widthw r qi qw input weight bo = Ok (Some out) /\ tensor_ok anyq N no ho wo out /\
  forall n o y x, (n < N)%nat -> (o < no)%nat -> (y < ho)%nat -> (x < wo)%nat ->
    let ei := Qpower 2 (1 - Z.of_nat widthi) in let ew := Qpower 2 (1 - Z.of_nat widthw) in
    (Qabs (entry4 0%Q out n o y x - (conv_entry (bv_kernel g) (bv_stride g) (bv_dil g) (bv_pad g) C H W input weight n o y x + bias_entry bo o)) <=
     inject_Z (Z.of_nat (taps C (bv_kernel g))) * X * Wm * (ei + (1 + ei) * ew))%Q.
Proof.
  intros C no g groups bias pm we be wi bi rnd r weight bo widthi widthw qi qw Hnew Hinit Hwi Hww Hqi Hqw N H W ho wo input X Wm G HN T HX HW X0 W0.
  rewrite ?all_entries_flat4 in *.
  destruct (fxpconv_outcomes C no (bv_kernel g) groups bias pm we be wi bi rnd) as [K _]. apply K in Hnew. destruct Hnew as (_ & _ & _ & Rw & Rb). clear K.
  destruct (conv_parts _ _ _ _ _ _ _ _ _ _ Rw Rb Hinit) as [Tw Tb].
  destruct (shifts_exist _ _ (Z.of_nat widthi - 1) (Z.of_nat widthw - 1) r qi qw X Wm HX HW Hqi Hqw X0 W0) as (ri & rw & ro & Er).
  destruct (fxpconv_taps g widthi widthw r qi qw N C H W ho wo no input weight bo ri rw ro G HN T Tw Tb Er) as (out & Eo & To & Out).
  exists out. split; [exact Eo|]. split; [exact To|]. intros n o y x Hn Ho Hy Hx ei ew. rewrite (Out n o y x Hn Ho Hy Hx).
  destruct (rshift_inv _ _ _ _ _ _ _ _ _ _ Er) as [Ni Nw].
  destruct (quantile_scale_spec (flat4 input) qi X HX) as [Ei _]. destruct (quantile_scale_spec (flat4 weight) qw Wm HW) as [Ew _].
  specialize (Ei Hqi). specialize (Ew Hqw).
  pose proof (fx_step r _ _ ri Ni) as U1. pose proof (fx_step r _ _ rw Nw) as U2. rewrite Ei in U1. rewrite Ew in U2.
  specialize (U1 ltac:(lra)). specialize (U2 ltac:(lra)).
  replace (- (Z.of_nat widthi - 1)) with (1 - Z.of_nat widthi) in U1 by lia. replace (- (Z.of_nat widthw - 1)) with (1 - Z.of_nat widthw) in U2 by lia.
  assert (Q0 : forall v, (0 <= fx_slack r * Qpower 2 v)%Q).
  { intros v. apply Qlt_le_weak, Qmult_lt_0_compat; [apply fx_slack_pos|apply (qpow2_pos v)]. }
  set (row := qentry (brows g ho wo input) (row_index ho wo n y x)). set (col := qentry (map flat_filter weight) o).
  assert (Hr := row_index_lt N ho wo n y x Hn Hy Hx).
  assert (P : (Qabs (dotq (taps C (bv_kernel g)) (fun i => fx_quant (p2 widthi) ri (row i)) (fun i => fx_quant (p2 widthw) rw (col i)) - dotq (taps C (bv_kernel g)) row col) <=
     inject_Z (Z.of_nat (taps C (bv_kernel g))) * (fx_slack r * Qpower 2 ri * Wm + (X + fx_slack r * Qpower 2 ri) * (fx_slack r * Qpower 2 rw)))%Q).
  { apply dot_uniform; [apply Q0|apply Q0| |]; intros i Hi.
    - assert (B : (Qabs (row i) <= X)%Q).
      { apply (rows_bound g N C H W ho wo); try assumption. intros v Hv. apply (under_max g N C H W ho wo input X v T HX Hv). }
      split; [exact B|]. eapply fx_quant_near; [exact Hwi|exact Ni|]. rewrite Ei. exact B.
    - assert (B : (Qabs (col i) <= Wm)%Q) by (apply (weight_bound no C (bv_kernel g)); assumption).
      split; [exact B|]. eapply fx_quant_near; [exact Hww|exact Nw|]. rewrite Ew. exact B. }
  pose proof (tap_prod_rows (fx_quant (p2 widthi) ri) (fx_quant (p2 widthw) rw) g N C H W ho wo no input weight n o y x G HN T Tw Hn Ho Hy Hx) as E1.
  pose proof (conv_entry_dot g N C H W ho wo no input weight n o y x G HN T Tw Hn Ho Hy Hx) as E2.
  unfold tap_prod in E1. rewrite <- E1, E2. fold row col. fold (taps C (bv_kernel g)).
  set (D := dotq _ row col) in *. set (D' := dotq _ (fun i => fx_quant (p2 widthi) ri (row i)) _) in *. set (b := bias_entry bo o) in *.
  assert (E : (D' + b - (D + b) == D' - D)%Q) by ring. rewrite E.
  eapply Qle_trans; [exact P|]. apply dot_relative_bound; try lra; auto.
Qed.

(** ** TLUTConv2d *)
Theorem tlutconv_converges : forall C no g groups bias pm we be wi bi temporal formati formatw widthi widthw widtht qi qw rnd c weight bo ei ew,
  tlutconv_new C no (bv_kernel g) groups bias pm we be wi bi temporal formati formatw widthi widthw widtht qi qw None rnd true = Ok (c, (weight, bo)) ->
  kern no C (fst (bv_kernel g)) (snd (bv_kernel g)) wi /\ vec no bi ->
  (named rnd ["ceil"]%string \/ ~ named formati ["fxp"]%string /\ ~ named formatw ["fxp"]%string) ->
  (1 <= widthi)%nat -> (1 <= widthw)%nat -> (1 <= widtht)%nat -> (qi == 1)%Q -> (qw == 1)%Q -> tlut_steps temporal formati formatw widthi widthw ei ew ->
  forall N H W ho wo input X Wm, bconv_geom g C H W ho wo -> (1 <= N)%nat -> tensor_ok anyq N C H W input ->
  is_max_abs (under_all (bv_kernel g) (bv_stride g) (bv_dil g) (bv_pad g) N C H W ho wo input) X -> is_max_abs (all_entries weight) Wm -> (0 < X)%Q -> (0 < Wm)%Q ->
  exists out, tlutconv c g input weight bo = Ok (Some out) /\ tensor_ok anyq N no ho wo out /\
  forall n o y x, (n < N)%nat -> (o < no)%nat -> (y < ho)%nat -> (x < wo)%nat ->
    (Qabs (entry4 0%Q out n o y x - (conv_entry (bv_kernel g) (bv_stride g) (bv_dil g) (bv_pad g) C H W input weight n o y x + bias_entry bo o)) <=
     inject_Z (Z.of_nat (taps C (bv_kernel g))) * X * Wm * (ei + (1 + ei) * ew))%Q.
Proof.
  intros C no g groups bias pm we be wi bi temporal formati formatw widthi widthw widtht qi qw rnd c weight bo ei ew
    Hnew Hinit Hrnd Hwi Hww Ht Hqi Hqw St N H W ho wo input X Wm G HN T HX HW X0 W0.
  rewrite ?all_entries_flat4 in *.
  destruct (tlutconv_outcomes C no (bv_kernel g) groups bias pm we be wi bi temporal formati formatw widthi widthw widtht qi qw None rnd true) as [K _].
  apply K in Hnew. destruct Hnew as (_ & _ & Ec & Rw & Rb). clear K.
  destruct (conv_parts _ _ _ _ _ _ _ _ _ _ Rw Rb Hinit) as [Tw Tb].
  destruct (tlut_config _ _ _ _ _ _ _ _ _ _ _ _ Ec) as (_ & _ & _ & _ & _ & _ & _ & _ & _ & _ & _ & _ & Cqi & Cqw).
  assert (Er : exists ri rw ro, tc_mode c <> FpFp -> rshift_offset (concat (brows g ho wo input)) (concat (map flat_filter weight))
     (Z.of_nat (match tc_mode c with FxpFxp => tc_widthi c | _ => tc_width c end))
     (Z.of_nat (match tc_mode c with FxpFxp => tc_widthw c | _ => tc_width c end)) (tc_round c) (tc_qi c) (tc_qw c) = Ok (Some (ri, rw, ro))).
  { rewrite (brows_all g N C H W ho wo input G HN T). rewrite Cqi, Cqw.
    destruct (shifts_exist _ _ (Z.of_nat (match tc_mode c with FxpFxp => tc_widthi c | _ => tc_width c end))
     (Z.of_nat (match tc_mode c with FxpFxp => tc_widthw c | _ => tc_width c end)) (tc_round c) qi qw X Wm HX HW Hqi Hqw X0 W0) as (ri & rw & ro & E).
    exists ri, rw, ro. intros _. exact E. }
  destruct Er as (ri & rw & ro & Er).
  pose proof (tlut_apply_eq c _ _ None ri rw ro Er) as Ea.
  destruct (bconv_rows_ok g N C H W ho wo input G HN T) as (_ & Sr & _). destruct (bweight_ok _ _ _ _ _ Tw) as [Sw _].
  pose proof (matmul_shape (tlut_left c ri) (tlut_right c rw) _ _ no _ _ Sr Sw) as Sm.
  change (add_bias None ?m) with m in Ea. set (mm := qmatmul_t _ _) in *.
  destruct (bconv_apply_ok g (fun rows w => tlut_apply c rows w None) N C H W ho wo no input weight bo mm G HN T Tw Tb Ea Sm) as (out & Eo & To & Out).
  exists out. split; [exact Eo|]. split; [exact To|]. intros n o y x Hn Ho Hy Hx. rewrite (Out n o y x Hn Ho Hy Hx).
  assert (Hr := row_index_lt N ho wo n y x Hn Hy Hx). rewrite <- (brows_all g N C H W ho wo input G HN T) in HX.
  pose proof (tlut_converges temporal formati formatw widthi widthw widtht qi qw rnd c (N * (ho * wo))%nat (taps C (bv_kernel g)) no _ _ None mm X Wm ei ew
    Ec Hrnd Hwi Hww Ht Hqi Hqw Sr Sw Logic.I HX HW Ea St _ o Hr Ho) as Bd. cbn [bias_entry] in Bd.
  rewrite (conv_entry_dot g N C H W ho wo no input weight n o y x G HN T Tw Hn Ho Hy Hx).
  set (D := dotq _ _ _) in *. set (m := qentry mm _ _) in *. set (b := bias_entry bo o).
  assert (E : (m + b - (D + b) == m - (D + 0))%Q) by ring. rewrite E. exact Bd.
Qed.
Theorem tlutconv_round_clips : forall be wi bi temporal formati formatw widthi widthw widtht rnd c weight bo,
  tlutconv_new 1 1 (1, 1)%nat 1 false "zeros" (Some [[[[7 # 5]]]]%Q) be wi bi temporal formati formatw widthi widthw widtht 1 1 None rnd true = Ok (c, (weight, bo)) ->
  named formati ["fxp"]%string -> named formatw ["fxp"]%string -> named rnd ["round"]%string -> (1 <= widtht)%nat ->
  exists v, tlutconv c one_tap [[[[7 # 5]]]]%Q weight bo = Ok (Some [[[[v]]]]) /\ (v < 1)%Q.
Proof.
  intros be wi bi temporal formati formatw widthi widthw widtht rnd c weight bo Hnew Fi Fw Hr Ht.
  destruct (tlutconv_outcomes 1 1 (1, 1)%nat 1 false "zeros" (Some [[[[7 # 5]]]]%Q) be wi bi temporal formati formatw widthi widthw widtht 1 1 None rnd true) as [K _].
  apply K in Hnew. destruct Hnew as (_ & _ & Ec & Rw & Rb). clear K.
  assert (Ew : weight = [[[[7 # 5]]]]%Q) by (destruct Rw as [[D _]|[D _]]; [discriminate|congruence]). subst weight.
  assert (Eb : bo = None) by (destruct Rb as [[_ E]|[D _]]; [exact E|discriminate]). subst bo.
  destruct (tlut_round_clips _ _ _ _ _ _ _ _ Ec Fi Fw Hr Ht) as (v & Ev & Lv). exists v. split; [|exact Lv].
  unfold tlutconv, bconv_apply. change (bconv_rows one_tap [[[[7 # 5]]]]%Q) with (Ok [[7 # 5]]%Q : result (list (list Q))). cbn [bind].
  change (map flat_filter [[[[7 # 5]]]]%Q) with [[7 # 5]]%Q. rewrite Ev. cbn [bind]. reflexivity.
Qed.
