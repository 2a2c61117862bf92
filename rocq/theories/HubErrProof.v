(** Proofs for C72. *)
From Coq Require Import String Lqa.
Require Import Verif.BaseLemmas Verif.GenProof Verif.LinearModel Verif.LinearProof Verif.Spec Verif.HubErrSpec Verif.UtilsProof Verif.HubModel Verif.HubProof Verif.TlutProof Verif.BinConvModel Verif.NameSpec Verif.BinConvProof Verif.NameProof Verif.NewModel Verif.NewSpec Verif.NewProof.
Open Scope Z_scope.

Lemma slack_half r c w : (1 # 2 <= hub_slack r c w)%Q.
Proof. unfold hub_slack. destruct (Qle_bool_spec (1 # 2) (top_ratio r * inject_Z (p2 w) - inject_Z (c - 1))); lra. Qed.
Lemma slack_over r c w : (top_ratio r * inject_Z (p2 w) - inject_Z (c - 1) <= hub_slack r c w)%Q.
Proof. unfold hub_slack. destruct (Qle_bool_spec (1 # 2) (top_ratio r * inject_Z (p2 w) - inject_Z (c - 1))); lra. Qed.
Lemma normalised_top r w t : (0 <= t)%Q -> normalised r (Z.of_nat w) t -> (t <= top_ratio r * inject_Z (p2 w))%Q.
Proof.
  intros T0 H. assert (PQ : (qpow2 (Z.of_nat w) == inject_Z (p2 w))%Q) by (apply qpow2_Z; lia).
  assert (P1 : (1 <= inject_Z (p2 w))%Q) by (change 1%Q with (inject_Z 1); apply inject_Z_le_iff; apply p2_ge_1).
  destruct r; cbn [normalised top_ratio] in *.
  - destruct H as [_ H]. change (Qpower 2) with qpow2 in H. replace (2 * Z.of_nat w + 1) with (Z.of_nat w + Z.of_nat w + 1) in H by lia.
    rewrite !qpow2_add, PQ in H. change (qpow2 1) with 2%Q in H. set (m := inject_Z (p2 w)) in *. clearbody m.
    destruct (Qlt_le_dec ((17 # 12) * m) t) as [L|L]; [exfalso|exact L].
    assert (T1 : ((17 # 12) * m * ((17 # 12) * m) <= t * t)%Q) by (apply Qmult_le_compat_nonneg; split; nra). clear - T1 H P1. nra.
  - destruct H as [_ H]. change (Qpower 2) with qpow2 in H. rewrite qpow2_add, PQ in H. change (qpow2 1) with 2%Q in H. lra.
  - destruct H as [_ H]. change (Qpower 2) with qpow2 in H. rewrite PQ in H. lra.
Qed.
Lemma sm_quant_error w r rs s c x : 1 <= c -> normalised r (Z.of_nat w) (s / Qpower 2 rs) -> (Qabs x <= s)%Q ->
  (Qabs (x - sm_quant c rs x) <= hub_slack r c w * Qpower 2 rs)%Q.
Proof.
  intros Hc HN Hx. destruct (sm_quant_spec c rs x Hc) as (NS & _). pose proof (qpow2_pos rs) as P. change (Qpower 2 rs) with (qpow2 rs) in *.
  destruct NS as [N|(S1 & S2 & S3)].
  - eapply Qle_trans; [exact N|]. rewrite Qmult_comm. apply Qmult_le_compat_r; [apply slack_half|lra].
  - assert (S0 : (0 <= s)%Q) by (pose proof (Qabs_nonneg x); lra).
    assert (T : (s <= top_ratio r * inject_Z (p2 w) * qpow2 rs)%Q).
    { assert (E : (s == s / qpow2 rs * qpow2 rs)%Q) by (field; lra). rewrite E. apply Qmult_le_compat_r; [|lra]. apply normalised_top; [|exact HN].
      unfold Qdiv. apply Qmult_le_0_compat; [exact S0|]. apply Qlt_le_weak, Qinv_lt_0_compat, P. }
    assert (K : (Qabs (x - sm_quant c rs x) == Qabs x - Qabs (sm_quant c rs x))%Q).
    { set (q := sm_quant c rs x) in *. clearbody q. clear - S1 S2 S3 P.
      rewrite <- S1 in S2. destruct (Qlt_le_dec x 0) as [X|X]; destruct (Qlt_le_dec q 0) as [Y|Y].
      - rewrite (Qabs_neg x), (Qabs_neg q) in * by lra. rewrite Qabs_neg; lra.
      - rewrite (Qabs_neg x), (Qabs_pos q) in * by lra. assert (q == 0)%Q by nra. rewrite Qabs_neg; lra.
      - rewrite (Qabs_pos x), (Qabs_neg q) in * by lra. exfalso. nra.
      - rewrite (Qabs_pos x), (Qabs_pos q) in * by lra. rewrite Qabs_pos; lra. }
    rewrite K, S1. pose proof (slack_over r c w) as O.
    assert (O' : ((top_ratio r * inject_Z (p2 w) - inject_Z (c - 1)) * qpow2 rs <= hub_slack r c w * qpow2 rs)%Q) by (apply Qmult_le_compat_r; [exact O|lra]).
    set (A := (top_ratio r * inject_Z (p2 w))%Q) in *. clearbody A. lra.
Qed.
Lemma qsum_tab_mono n f g : (forall i, (i < n)%nat -> (f i <= g i)%Q) -> (qsum (tab n f) <= qsum (tab n g))%Q.
Proof.
  induction n as [|n IH]; intros H; [apply Qle_refl|]. rewrite !tab_S, !qsum_app. apply Qplus_le_compat; [apply IH; intros; apply H; lia|].
  cbn [qsum]. pose proof (H n ltac:(lia)). lra.
Qed.
(** Perturbed operands with uniform bounds. *)
Lemma dot_error n x x' y y' dx dy : (0 <= dx)%Q -> (forall i, (i < n)%nat -> (Qabs (x i - x' i) <= dx)%Q) -> (forall i, (i < n)%nat -> (Qabs (y i - y' i) <= dy)%Q) ->
  (Qabs (dotq n x' y' - dotq n x y) <= qsum (map (fun i => dx * Qabs (y i) + (Qabs (x i) + dx) * dy) (seq 0 n)))%Q.
Proof.
  intros D0 Hx Hy. eapply Qle_trans; [apply dot_perturb|]. apply qsum_tab_mono. intros i Hi. specialize (Hx i Hi). specialize (Hy i Hi).
  assert (A3 : (Qabs (x' i) <= Qabs (x i) + dx)%Q).
  { assert (E2 : (x' i == x i + - (x i - x' i))%Q) by ring. rewrite E2 at 1. eapply Qle_trans; [apply Qabs_triangle|]. rewrite Qabs_opp. lra. }
  pose proof (Qabs_nonneg (y i)). pose proof (Qabs_nonneg (x' i)). pose proof (Qabs_nonneg (y i - y' i)). pose proof (Qabs_nonneg (x i - x' i)).
  pose proof (Qabs_nonneg (x i)).
  apply Qplus_le_compat; [apply Qmult_le_compat_r; assumption|].
  apply (Qle_trans _ ((Qabs (x i) + dx) * Qabs (y i - y' i))); [apply Qmult_le_compat_r; assumption|].
  rewrite !(Qmult_comm (Qabs (x i) + dx)). apply Qmult_le_compat_r; [exact Hy|]. lra.
Qed.
Lemma rshift_inv input weight wi ww r qi qw ri rw ro : rshift_offset input weight wi ww r qi qw = Ok (Some (ri, rw, ro)) ->
  normalised r wi (quantile_scale input qi / Qpower 2 ri) /\ normalised r ww (quantile_scale weight qw / Qpower 2 rw).
Proof.
  intros Er.
  assert (NEi : input <> []) by (intros X; rewrite X in Er; discriminate).
  assert (NEw : weight <> []) by (intros X; rewrite X in Er; destruct input; discriminate).
  destruct (rshift_offset_spec input weight wi ww r qi qw NEi NEw) as [Z0 Z1].
  set (si := quantile_scale input qi) in *. set (sw := quantile_scale weight qw) in *.
  destruct (Qeq_dec si 0) as [N1|N1]; [rewrite Z0 in Er by (left; exact N1); discriminate|].
  destruct (Qeq_dec sw 0) as [N2|N2]; [rewrite Z0 in Er by (right; exact N2); discriminate|].
  destruct (Z1 N1 N2) as (ri' & rw' & ro' & Er' & Ni & Nw & _). rewrite Er in Er'.
  assert (ri' = ri) as -> by congruence. assert (rw' = rw) as -> by congruence. auto.
Qed.

Section Layer.
  Variables (exti extw : rng_ext) (w ni no : nat) (bias : bool) (we : option (list (list Q))) (be : option (list Q)) (wi : list (list Q)) (bi : list Q)
    (rngi rngw rnd : string) (qi qw : Q) (cyc : Z) (l : hub_layer) (ki kw : rng_kind).
  Hypothesis Hnew : hublin_new exti extw ni no bias we be wi bi (S w) (S w) rngi rngw qi qw (Some cyc) rnd true = Ok l.
  Hypothesis Hinit : mat no ni wi /\ vec no bi.
  Hypothesis Hw : (1 <= w <= sobol_maxbit)%nat.
  Hypothesis Hxi : ext_ok exti w.
  Hypothesis Hxw : ext_ok extw w.
  Hypothesis Hki : rng_parse rngi = Ok ki.
  Hypothesis Hkw : rng_parse rngw = Ok kw.
  Hypothesis Hli : ki <> KLfsr.
  Hypothesis Hlw : kw <> KLfsr.
  Hypothesis Hsob : (if is_tc kw then ki else kw) = KSobol.
  Hypothesis Hcyc : 1 <= cyc.
  Let cycle := Z.min cyc (p2 w).

  Lemma layer_parts : qshape no ni (hl_weight l) /\ bias_ok no (hl_bias l) /\ hub_new exti extw (S w) (S w) rngi rngw (Some cyc) = Ok (hl_cfg l) /\
    hl_widthi l = S w /\ hl_widthw l = S w /\ hl_qi l = qi /\ hl_qw l = qw.
  Proof.
    destruct (hublin_outcomes exti extw ni no bias we be wi bi (S w) (S w) rngi rngw qi qw (Some cyc) rnd true) as [H _].
    apply H in Hnew. destruct Hnew as (_ & _ & _ & Rw & Rb & N & E1 & E2 & E3 & E4). destruct Hinit as [Iw Ib].
    split; [destruct Rw as [[_ ->]|[_ R]]; [exact Iw|exact R]|]. split; [|auto 9].
    destruct Rb as [[_ ->]|(_ & x & -> & R)]; [exact Logic.I|]. destruct R as [[_ ->]|[_ R]]; [exact Ib|exact R].
  Qed.
  Theorem hub_error : (qi == 1)%Q -> (qw == 1)%Q -> forall B input out, qshape B ni input -> hublin_forward l input = Ok (Some out) ->
    exists ri rw ro, rshift_offset (concat input) (concat (hl_weight l)) (Z.of_nat w) (Z.of_nat w) (hl_round l) qi qw = Ok (Some (ri, rw, ro)) /\
    qshape B no out /\
    forall b o, (b < B)%nat -> (o < no)%nat ->
    let dx := (hub_slack (hl_round l) cycle w * Qpower 2 ri)%Q in
    let dw := (hub_slack (hl_round l) cycle w * Qpower 2 rw)%Q in
    (Qabs (qentry out b o - (dotq ni (qentry input b) (qentry (hl_weight l) o) + bias_entry (hl_bias l) o)) <=
     inject_Z (Z.of_nat ni * Z.of_nat w) * Qpower 2 (Z.of_nat w + ri + rw) +
     qsum (map (fun i => dx * Qabs (qentry (hl_weight l) o i) + (Qabs (qentry input b i) + dx) * dw) (seq 0 ni)))%Q.
  Proof.
    intros Hqi Hqw B input out Hi Ho. destruct layer_parts as (Sw & Sb & N & E1 & E2 & E3 & E4).
    assert (Ht : is_tc ki && is_tc kw = false).
    { destruct (is_tc kw) eqn:T; [|apply andb_false_r]. rewrite Hsob. reflexivity. }
    destruct (hub_linear_bound exti extw w rngi rngw ki kw cyc B ni no (hl_round l) qi qw input (hl_weight l) (hl_bias l)
      Hw Hxi Hxw Hki Hkw Hli Hlw Ht Hsob Hcyc Hi Sw Sb) as (c & Ec & Hb).
    assert (c = hl_cfg l) as -> by congruence.
    destruct (Hb out) as (ri & rw & ro & Er & So & Bd).
    { unfold hublin_forward in Ho. rewrite E1, E2, E3, E4 in Ho. exact Ho. }
    exists ri, rw, ro. split; [exact Er|]. split; [exact So|]. intros b o Lb Lo dx dw.
    specialize (Bd b o Lb Lo). cbv zeta in Bd. fold cycle in Bd.
    destruct (rshift_inv _ _ _ _ _ _ _ _ _ _ Er) as [Ni Nw].
    assert (C1 : 1 <= cycle) by (unfold cycle; pose proof (p2_ge_1 w); lia).
    set (x' := fun i => sm_quant cycle ri (qentry input b i)) in *. set (w' := fun i => sm_quant cycle rw (qentry (hl_weight l) o i)) in *.
    assert (Dx : forall i, (i < ni)%nat -> (Qabs (qentry input b i - x' i) <= dx)%Q).
    { intros i Hi'. apply (sm_quant_error w _ ri _ cycle _ C1 Ni). apply (scale_bounds_entry B ni); assumption. }
    assert (Dw : forall i, (i < ni)%nat -> (Qabs (qentry (hl_weight l) o i - w' i) <= dw)%Q).
    { intros i Hi'. apply (sm_quant_error w _ rw _ cycle _ C1 Nw). apply (scale_bounds_entry no ni); assumption. }
    assert (D0 : (0 <= dx)%Q).
    { unfold dx. apply Qmult_le_0_compat; [pose proof (slack_half (hl_round l) cycle w); lra|]. apply Qlt_le_weak, (qpow2_pos ri). }
    pose proof (dot_error ni (qentry input b) x' (qentry (hl_weight l) o) w' dx dw D0 Dx Dw) as P.
    set (be' := bias_entry (hl_bias l) o) in *. set (D' := dotq ni x' w') in *. set (D := dotq ni (qentry input b) (qentry (hl_weight l) o)) in *.
    assert (E : (qentry out b o - (D + be') == (qentry out b o - (D' + be')) + (D' - D))%Q) by ring. rewrite E.
    eapply Qle_trans; [apply Qabs_triangle|]. apply Qplus_le_compat; assumption.
  Qed.

  (** Rounding up: the error vanishes with the width. *)
  Theorem hub_converges : (qi == 1)%Q -> (qw == 1)%Q -> hl_round l = RCeil -> p2 w <= cyc ->
    forall B input out X W, qshape B ni input -> is_max_abs (concat input) X -> is_max_abs (concat (hl_weight l)) W ->
    hublin_forward l input = Ok (Some out) ->
    qshape B no out /\
    forall b o, (b < B)%nat -> (o < no)%nat ->
    (Qabs (qentry out b o - (dotq ni (qentry input b) (qentry (hl_weight l) o) + bias_entry (hl_bias l) o)) <=
     inject_Z (Z.of_nat ni * (4 * (Z.of_nat w + 2))) * X * W / inject_Z (p2 w))%Q.
  Proof.
    intros Hqi Hqw Hr Hc B input out X W Hi HX HW Ho. destruct (hub_error Hqi Hqw B input out Hi Ho) as (ri & rw & ro & Er & So & Bd).
    split; [exact So|]. intros b o Lb Lo. specialize (Bd b o Lb Lo). cbv zeta in Bd. rewrite Hr in *.
    assert (Ecy : cycle = p2 w) by (unfold cycle; lia). rewrite Ecy in Bd.
    destruct (rshift_inv _ _ _ _ _ _ _ _ _ _ Er) as [Ni Nw]. cbn [normalised] in Ni, Nw.
    destruct (quantile_scale_spec (concat input) qi X HX) as [Ei _]. destruct (quantile_scale_spec (concat (hl_weight l)) qw W HW) as [Ew _].
    specialize (Ei Hqi). specialize (Ew Hqw).
    pose proof (qpow2_pos ri) as Pi. pose proof (qpow2_pos rw) as Pw.
    assert (PQ : (qpow2 (Z.of_nat w) == inject_Z (p2 w))%Q) by (apply qpow2_Z; lia).
    set (M := inject_Z (p2 w)) in *.
    assert (M1 : (1 <= M)%Q) by (change 1%Q with (inject_Z 1); apply inject_Z_le_iff; apply p2_ge_1).
    assert (Hs : (hub_slack RCeil (p2 w) w == 1)%Q).
    { unfold hub_slack. cbn [top_ratio]. fold M. replace (p2 w - 1) with (p2 w + (-1)) by lia. rewrite inject_Z_plus. fold M. change (inject_Z (-1)) with (-1)%Q.
      destruct (Qle_bool_spec (1 # 2) (1 * M - (M + -1))); lra. }
    set (sl := hub_slack RCeil (p2 w) w) in *. clearbody sl.
    set (p := qpow2 ri) in *. set (q := qpow2 rw) in *. change (Qpower 2 ri) with p in *. change (Qpower 2 rw) with q in *.
    assert (Ep : (Qpower 2 (Z.of_nat w + ri + rw) == M * p * q)%Q).
    { change (Qpower 2) with qpow2. rewrite !qpow2_add, PQ. reflexivity. }
    clearbody p q M.
    (* 2^r <= 2 max / 2^w *)
    assert (Up : forall s t, (0 < t)%Q -> above_and_upto (Z.of_nat w) (s / t) -> (M * t <= 2 * s)%Q).
    { intros s t Ht [U _]. change (Qpower 2 (Z.of_nat w - 1)) with (qpow2 (Z.of_nat w - 1)) in U. unfold Z.sub in U. rewrite qpow2_add, PQ in U.
      change (qpow2 (- (1))) with (1 # 2)%Q in U. assert (E : (s == s / t * t)%Q) by (field; lra). rewrite E. clear E.
      assert (U' : (M * (1 # 2) * t <= s / t * t)%Q) by (apply Qmult_le_compat_r; lra). lra. }
    pose proof (Up _ p Pi Ni) as UX. pose proof (Up _ q Pw Nw) as UW. clear Up. rewrite Ei in UX. rewrite Ew in UW.
    assert (Mp : (0 < M * p)%Q) by (apply Qmult_lt_0_compat; lra). assert (Mq : (0 < M * q)%Q) by (apply Qmult_lt_0_compat; lra).
    assert (X0 : (0 < X)%Q) by lra. assert (W0 : (0 < W)%Q) by lra.
    assert (Sum : forall f, (forall i, (i < ni)%nat -> (f i <= sl * p * W + (X + sl * p) * (sl * q))%Q) ->
       (qsum (map f (seq 0 ni)) <= inject_Z (Z.of_nat ni) * (sl * p * W + (X + sl * p) * (sl * q)))%Q).
    { clear. intros f H. change (map f (seq 0 ni)) with (tab ni f). set (K := (sl * p * W + (X + sl * p) * (sl * q))%Q) in *. clearbody K.
      induction ni as [|n IH]; [change (0 <= 0 * K)%Q; lra|]. rewrite tab_S, qsum_app. cbn [qsum].
      specialize (IH ltac:(intros; apply H; lia)). pose proof (H n ltac:(lia)). rewrite Nat2Z.inj_succ. unfold Z.succ. rewrite inject_Z_plus.
      change (inject_Z 1) with 1%Q. lra. }
    eapply Qle_trans; [exact Bd|].
    eapply Qle_trans.
    { apply Qplus_le_compat; [apply Qle_refl|]. apply Sum. intros i Li.
      destruct layer_parts as (Sw & _).
      pose proof (scale_bounds_entry B ni input qi b i Hi Lb Li Hqi) as Bx. rewrite Ei in Bx.
      pose proof (scale_bounds_entry no ni (hl_weight l) qw o i Sw Lo Li Hqw) as Bw. rewrite Ew in Bw.
      assert (0 < sl * p)%Q by (rewrite Hs; lra). assert (0 < sl * q)%Q by (rewrite Hs; lra).
      apply Qplus_le_compat.
      - rewrite !(Qmult_comm (sl * p)). apply Qmult_le_compat_r; [exact Bw|lra].
      - apply Qmult_le_compat_r; [|lra]. lra. }
    rewrite Ep, !Hs, !inject_Z_mult. change (inject_Z 4) with 4%Q. rewrite inject_Z_plus. change (inject_Z 2) with 2%Q.
    set (N := inject_Z (Z.of_nat ni)). set (wz := inject_Z (Z.of_nat w)).
    assert (N0 : (0 <= N)%Q) by (unfold N; change 0%Q with (inject_Z 0); apply inject_Z_le_iff; lia).
    assert (w0 : (1 <= wz)%Q) by (unfold wz; change 1%Q with (inject_Z 1); apply inject_Z_le_iff; lia).
    assert (G : (wz * (M * p * q) + (1 * p * W + (X + 1 * p) * (1 * q)) <= 4 * (wz + 2) * X * W / M)%Q).
    { apply Qle_shift_div_l; [lra|].
      assert (A1 : (M * p * (M * q) <= 2 * X * (2 * W))%Q) by (apply Qmult_le_compat_nonneg; split; lra).
      assert (A2 : (M * p * W <= 2 * X * W)%Q) by (apply Qmult_le_compat_r; lra).
      assert (A3 : (X * (M * q) <= X * (2 * W))%Q) by (rewrite !(Qmult_comm X); apply Qmult_le_compat_r; lra).
      assert (A4 : (p * (M * q) <= M * p * (M * q))%Q) by (apply Qmult_le_compat_r; [|lra]; assert (A0 : (1 * p <= M * p)%Q) by (apply Qmult_le_compat_r; lra); lra).
      assert (A5 : (wz * (M * p * (M * q)) <= wz * (2 * X * (2 * W)))%Q) by (rewrite !(Qmult_comm wz); apply Qmult_le_compat_r; lra).
      assert (E1 : ((wz * (M * p * q) + (1 * p * W + (X + 1 * p) * (1 * q))) * M ==
                    wz * (M * p * (M * q)) + (M * p * W + X * (M * q) + p * (M * q)))%Q) by ring. rewrite E1.
      assert (E2 : (4 * (wz + 2) * X * W == wz * (2 * X * (2 * W)) + 8 * (X * W))%Q) by ring. rewrite E2.
      assert (E3 : (2 * X * (2 * W) == 4 * (X * W))%Q) by ring. rewrite E3 in *.
      assert (E4 : (X * (2 * W) == 2 * (X * W))%Q) by ring. rewrite E4 in A3.
      assert (E5 : (2 * X * W == 2 * (X * W))%Q) by ring. rewrite E5 in A2. lra. }
    assert (E6 : (N * wz * (M * p * q) + N * (1 * p * W + (X + 1 * p) * (1 * q)) == N * (wz * (M * p * q) + (1 * p * W + (X + 1 * p) * (1 * q))))%Q) by ring.
    rewrite E6.
    assert (E7 : (N * (4 * (wz + 2)) * X * W / M == N * (4 * (wz + 2) * X * W / M))%Q) by (field; lra). rewrite E7.
    rewrite !(Qmult_comm N). apply Qmult_le_compat_r; assumption.
  Qed.
End Layer.

(** The default rounding clips the largest operand, whatever the width: one input and one weight of 7/5. *)
Theorem hub_round_clips : forall exti extw w bias rngi rngw rnd cyc l ki kw,
  hublin_new exti extw 1 1 bias (Some [[7 # 5]]%Q) None [] [0%Q] (S w) (S w) rngi rngw 1 1 (Some cyc) rnd true = Ok l -> hl_round l = RRound ->
  (1 <= w <= sobol_maxbit)%nat -> ext_ok exti w -> ext_ok extw w -> rng_parse rngi = Ok ki -> rng_parse rngw = Ok kw ->
  ki <> KLfsr -> kw <> KLfsr -> is_tc ki && is_tc kw = false -> 1 <= cyc ->
  exists v, hublin_forward l [[7 # 5]]%Q = Ok (Some [[v]]) /\ (v < 1)%Q.
Proof.
  intros exti extw w bias rngi rngw rnd cyc l ki kw Hnew Hr Hw Xi Xw Ki Kw Li Lw Ht Hc.
  destruct (hublin_outcomes exti extw 1 1 bias (Some [[7 # 5]]%Q) None [] [0%Q] (S w) (S w) rngi rngw 1 1 (Some cyc) rnd true) as [H _].
  apply H in Hnew. destruct Hnew as (_ & _ & _ & Rw & Rb & N & E1 & E2 & E3 & E4).
  assert (Ew : hl_weight l = [[7 # 5]]%Q) by (destruct Rw as [[D _]|[D _]]; [discriminate|congruence]).
  assert (Eb : hl_bias l = None \/ hl_bias l = Some [0%Q]).
  { destruct Rb as [[_ ->]|(_ & x & -> & R)]; [left; reflexivity|]. destruct R as [[_ ->]|[D _]]; [right; reflexivity|discriminate]. }
  destruct (hub_new_ok exti extw w rngi rngw ki kw cyc Hw Xi Xw Ki Kw Li Lw Ht) as (c & Ec & Cc & Pc & Tc).
  assert (c = hl_cfg l) as -> by congruence.
  unfold hublin_forward. rewrite E1, E2, E3, E4, Hr, Ew. replace (Z.of_nat (S w) - 1) with (Z.of_nat w) by lia.
  change (concat [[7 # 5]]%Q) with [7 # 5]%Q.
  assert (Er : rshift_offset [7 # 5]%Q [7 # 5]%Q (Z.of_nat w) (Z.of_nat w) RRound 1 1 = Ok (Some (- Z.of_nat w, - Z.of_nat w, Z.of_nat w))).
  { unfold rshift_offset. cbv zeta. set (s := quantile_scale [7 # 5]%Q 1). assert (Z1 : Qle_bool s 0 = false) by (vm_compute; reflexivity).
    assert (Z2 : log2_rounded RRound s = 0) by (vm_compute; reflexivity). rewrite Z1, Z2. cbn [orb]. rewrite Z.max_id. do 4 f_equal; lia. }
  rewrite Er. cbn [bind].
  pose proof (p2_ge_1 w) as P1.
  set (z := hub_mul (hl_cfg l) (- Z.of_nat w) (- Z.of_nat w) (7 # 5) (7 # 5)).
  assert (Bz : z <= p2 w - 1).
  { unfold z. rewrite hub_mul_eq. change (qsign (7 # 5)) with 1.
    destruct (hub_mag_eq (hub_cycle (hl_cfg l)) (- Z.of_nat w) (7 # 5) ltac:(lia)) as [_ R]. rewrite Cc in *.
    rewrite Tc by lia. set (m := hub_mag _ _ _) in *.
    destruct (below_laws w _ m m Pc ltac:(lia) ltac:(lia)) as (L & _). lia. }
  assert (V : exists v, hub_forward (hl_cfg l) (- Z.of_nat w) (- Z.of_nat w) (Z.of_nat w) [[7 # 5]]%Q [[7 # 5]]%Q (hl_bias l) = [[v]] /\
    (v == inject_Z z / qpow2 (Z.of_nat w))%Q).
  { unfold hub_forward. cbn [map map2 zsum]. fold z.
    destruct Eb as [-> | ->]; cbn [add_bias map map2]; (eexists; split; [reflexivity|]); unfold qshr; rewrite Z.add_0_r; [reflexivity|ring]. }
  destruct V as (v & Ev & Vv). exists v. split; [rewrite Ev; reflexivity|]. rewrite Vv.
  assert (PQ : (qpow2 (Z.of_nat w) == inject_Z (p2 w))%Q) by (apply qpow2_Z; lia). rewrite PQ.
  assert (L1 : (inject_Z z < inject_Z (p2 w))%Q) by (apply inject_Z_lt_iff; lia).
  assert (L2 : (0 < inject_Z (p2 w))%Q) by (change 0%Q with (inject_Z 0); apply inject_Z_lt_iff; lia).
  apply Qlt_shift_div_r; [exact L2|]. lra.
Qed.

(** ** Operands known to a fraction of the largest one *)
Lemma sum_relative n x y X W dx dw ei ew : (0 <= X)%Q -> (0 <= W)%Q -> (0 <= dx)%Q -> (0 <= dw)%Q -> (dx <= X * ei)%Q -> (dw <= W * ew)%Q ->
  (forall i, (i < n)%nat -> (Qabs (x i) <= X)%Q) -> (forall i, (i < n)%nat -> (Qabs (y i) <= W)%Q) ->
  (qsum (map (fun i => dx * Qabs (y i) + (Qabs (x i) + dx) * dw) (seq 0 n)) <= inject_Z (Z.of_nat n) * X * W * (ei + (1 + ei) * ew))%Q.
Proof.
  intros X0 W0 D0 D1 Hx Hw Bx By.
  assert (T : forall i, (i < n)%nat -> (dx * Qabs (y i) + (Qabs (x i) + dx) * dw <= X * W * (ei + (1 + ei) * ew))%Q).
  { intros i Hi. specialize (Bx i Hi). specialize (By i Hi). pose proof (Qabs_nonneg (x i)). pose proof (Qabs_nonneg (y i)).
    assert (A : (dx * Qabs (y i) <= X * ei * W)%Q) by (apply Qmult_le_compat_nonneg; split; assumption).
    assert (C : ((Qabs (x i) + dx) * dw <= (X + X * ei) * (W * ew))%Q) by (apply Qmult_le_compat_nonneg; split; lra).
    assert (E : (X * W * (ei + (1 + ei) * ew) == X * ei * W + (X + X * ei) * (W * ew))%Q) by ring. rewrite E. apply Qplus_le_compat; assumption. }
  set (K := (X * W * (ei + (1 + ei) * ew))%Q) in *.
  assert (E : (inject_Z (Z.of_nat n) * X * W * (ei + (1 + ei) * ew) == inject_Z (Z.of_nat n) * K)%Q) by (unfold K; ring). rewrite E. clear E.
  set (f := fun i => _) in *. change (map f (seq 0 n)) with (tab n f). clear Bx By. clearbody K.
  induction n as [|n IH]; [change (0 <= 0 * K)%Q; lra|]. rewrite tab_S, qsum_app. cbn [qsum].
  specialize (IH ltac:(intros; apply T; lia)). pose proof (T n ltac:(lia)) as Tn. rewrite Nat2Z.inj_succ. unfold Z.succ. rewrite inject_Z_plus.
  change (inject_Z 1) with 1%Q. change (dx * Qabs (y n) + (Qabs (x n) + dx) * dw)%Q with (f n) in Tn. lra.
Qed.
Lemma qpow2_half a : (qpow2 (a - 1) == qpow2 a * (1 # 2))%Q.
Proof. unfold Z.sub. rewrite qpow2_add. reflexivity. Qed.
(** One step of fixed point against the largest magnitude. *)
Lemma fx_step r m s rs : normalised r m (s / Qpower 2 rs) -> (0 <= s)%Q -> (fx_slack r * Qpower 2 rs <= s * Qpower 2 (- m))%Q.
Proof.
  intros HN S0. change (Qpower 2) with qpow2 in *. pose proof (qpow2_pos rs) as P. pose proof (qpow2_pos m) as Pm.
  set (t := (s / qpow2 rs)%Q) in *. assert (Es : (s == t * qpow2 rs)%Q) by (unfold t; field; lra).
  assert (T0 : (0 <= t)%Q) by (unfold t, Qdiv; apply Qmult_le_0_compat; [exact S0|]; apply Qlt_le_weak, Qinv_lt_0_compat, P).
  assert (K : (fx_slack r * qpow2 m <= t)%Q).
  { clearbody t. clear Es. destruct r; cbn [normalised fx_slack] in *.
    - destruct HN as [H _]. change (Qpower 2) with qpow2 in H. replace (2 * m - 1) with (m + m + -1) in H by lia.
      rewrite !qpow2_add in H. change (qpow2 (-1)) with (1 # 2)%Q in H. set (k := qpow2 m) in *. clearbody k.
      destruct (Qlt_le_dec t ((1 # 2) * k)) as [L|L]; [exfalso|exact L].
      assert (T1 : (t * t <= (1 # 2) * k * ((1 # 2) * k))%Q) by (apply Qmult_le_compat_nonneg; split; lra).
      assert (T2 : (0 < k * k)%Q) by (apply Qmult_lt_0_compat; exact Pm). lra.
    - destruct HN as [H _]. change (Qpower 2) with qpow2 in H. lra.
    - destruct HN as [H _]. change (Qpower 2) with qpow2 in H. rewrite qpow2_half in H. lra. }
  assert (I : (qpow2 m * qpow2 (- m) == 1)%Q) by (rewrite <- qpow2_add; replace (m + - m) with 0 by lia; reflexivity).
  pose proof (qpow2_pos (- m)) as Pn. set (k := qpow2 m) in *. set (k' := qpow2 (- m)) in *. set (p := qpow2 rs) in *. clearbody t k k' p.
  rewrite Es. assert (E : (fx_slack r * p == fx_slack r * k * (p * k'))%Q).
  { assert (E0 : (fx_slack r * k * (p * k') == fx_slack r * p * (k * k'))%Q) by ring. rewrite E0, I. ring. }
  rewrite E. assert (E1 : (t * p * k' == t * (p * k'))%Q) by ring. rewrite E1. apply Qmult_le_compat_r; [exact K|].
  apply Qmult_le_0_compat; lra.
Qed.
Lemma fx_slack_pos r : (0 < fx_slack r)%Q.
Proof. destruct r; reflexivity. Qed.
Theorem fxp_converges : forall widthi widthw r qi qw B n no input weight bias out X W,
  (1 <= widthi)%nat -> (1 <= widthw)%nat -> (qi == 1)%Q -> (qw == 1)%Q ->
  qshape B n input -> qshape no n weight -> bias_ok no bias -> is_max_abs (concat input) X -> is_max_abs (concat weight) W ->
  fxp_linear widthi widthw r qi qw input weight bias = Ok (Some out) ->
  qshape B no out /\ forall b o, (b < B)%nat -> (o < no)%nat ->
    let ei := Qpower 2 (1 - Z.of_nat widthi) in let ew := Qpower 2 (1 - Z.of_nat widthw) in
    (Qabs (qentry out b o - (dotq n (qentry input b) (qentry weight o) + bias_entry bias o)) <=
     inject_Z (Z.of_nat n) * X * W * (ei + (1 + ei) * ew))%Q.
Proof.
  intros widthi widthw r qi qw B n no input weight bias out X W Hwi Hww Hqi Hqw Hi Hw Hb HX HW Ho.
  destruct (fxp_linear_error widthi widthw r qi qw B n no input weight bias out Hwi Hww Hqi Hqw Hi Hw Hb Ho) as (ri & rw & ro & Er & So & Bd).
  split; [exact So|]. intros b o Lb Lo ei ew. specialize (Bd b o Lb Lo). cbv zeta in Bd. eapply Qle_trans; [exact Bd|].
  destruct (rshift_inv _ _ _ _ _ _ _ _ _ _ Er) as [Ni Nw].
  destruct (quantile_scale_spec (concat input) qi X HX) as [Ei _]. destruct (quantile_scale_spec (concat weight) qw W HW) as [Ew _].
  specialize (Ei Hqi). specialize (Ew Hqw).
  assert (X0 : (0 <= X)%Q) by (destruct HX as [(y & _ & E) _]; rewrite <- E; apply Qabs_nonneg).
  assert (W0 : (0 <= W)%Q) by (destruct HW as [(y & _ & E) _]; rewrite <- E; apply Qabs_nonneg).
  pose proof (fx_slack_pos r) as F0. pose proof (qpow2_pos ri) as Pi. pose proof (qpow2_pos rw) as Pw.
  pose proof (fx_step r _ _ ri Ni) as U1. pose proof (fx_step r _ _ rw Nw) as U2. rewrite Ei in U1. rewrite Ew in U2. specialize (U1 X0). specialize (U2 W0).
  replace (- (Z.of_nat widthi - 1)) with (1 - Z.of_nat widthi) in U1 by lia. replace (- (Z.of_nat widthw - 1)) with (1 - Z.of_nat widthw) in U2 by lia.
  apply sum_relative; try assumption.
  - apply Qlt_le_weak, Qmult_lt_0_compat; assumption.
  - apply Qlt_le_weak, Qmult_lt_0_compat; assumption.
  - intros i Li. rewrite <- Ei. apply (scale_bounds_entry B n); assumption.
  - intros i Li. rewrite <- Ew. apply (scale_bounds_entry no n); assumption.
Qed.

(** ** TLUTLinear *)
Lemma qtrunc_near y : (Qabs (y - inject_Z (qtrunc y)) <= 1)%Q.
Proof.
  assert (P : forall y, (0 <= y)%Q -> (Qabs (y - inject_Z (qtrunc y)) <= 1)%Q).
  { intros z Hz. rewrite (qtrunc_pos z Hz). pose proof (Qfloor_le z). pose proof (Qlt_floor z) as U. rewrite inject_Z_plus in U. change (inject_Z 1) with 1%Q in U.
    rewrite Qabs_pos; lra. }
  destruct (Qlt_le_dec y 0) as [L|L]; [|apply P; exact L].
  assert (L' : (0 <= - y)%Q) by lra. specialize (P (- y)%Q L'). rewrite qtrunc_opp, inject_Z_opp in P. rewrite <- Qabs_opp.
  assert (E : (- (y - inject_Z (qtrunc y)) == - y - - inject_Z (qtrunc y))%Q) by ring. rewrite E. exact P.
Qed.
Lemma tlut_plain_error w rs s x : above_and_upto (Z.of_nat w) (s / Qpower 2 rs) -> (Qabs x <= s)%Q ->
  (Qabs (x - tlut_plain w rs x) <= s * Qpower 2 (1 - Z.of_nat w))%Q.
Proof.
  intros [N1 N2] Hx. change (Qpower 2) with qpow2 in *. pose proof (qpow2_pos rs) as P. rewrite qpow2_half in N1.
  destruct (tlut_quant_spec w rs x) as (_ & T1 & T2 & T3). unfold tlut_plain, qshl. set (z := tlut_quant w rs x) in *. change (Qpower 2 rs) with (qpow2 rs) in *.
  set (y := (x / qpow2 rs)%Q) in *. assert (Ex : (x == y * qpow2 rs)%Q) by (unfold y; field; lra).
  set (t := (s / qpow2 rs)%Q) in *. assert (Es : (s == t * qpow2 rs)%Q) by (unfold t; field; lra).
  assert (Yt : (Qabs y <= t)%Q).
  { assert (E : (Qabs x == Qabs y * qpow2 rs)%Q) by (rewrite Ex, Qabs_Qmult, (Qabs_pos (qpow2 rs)) by lra; reflexivity). rewrite E, Es in Hx.
    apply (Qmult_le_r _ _ (qpow2 rs)); assumption. }
  assert (PQ : (qpow2 (Z.of_nat w) == inject_Z (p2 w))%Q) by (apply qpow2_Z; lia).
  assert (Ek : (inject_Z (p2 w - 1) == qpow2 (Z.of_nat w) - 1)%Q) by (rewrite PQ; unfold Z.sub; rewrite inject_Z_plus; reflexivity).
  assert (Y1 : (Qabs (y - inject_Z z) <= 1)%Q).
  { pose proof (Qabs_case y (fun a => a <= t)%Q) as _. assert (A : (- t <= y <= t)%Q) by (apply Qabs_Qle_condition; exact Yt).
    destruct (Qlt_le_dec (inject_Z (p2 w - 1)) y) as [L|L].
    - rewrite T2 by lra. apply Qabs_Qle_condition. split; lra.
    - destruct (Qlt_le_dec y (- inject_Z (p2 w - 1))) as [L'|L'].
      + rewrite T3 by lra. replace (1 - p2 w) with (- (p2 w - 1)) by lia. rewrite inject_Z_opp. apply Qabs_Qle_condition. split; lra.
      + rewrite T1; [apply qtrunc_near|]. apply Qabs_Qle_condition. split; lra. }
  assert (E : (x - inject_Z z * qpow2 rs == (y - inject_Z z) * qpow2 rs)%Q) by (rewrite Ex; ring). rewrite E, Qabs_Qmult, (Qabs_pos (qpow2 rs)) by lra.
  assert (A1 : (Qabs (y - inject_Z z) * qpow2 rs <= 1 * qpow2 rs)%Q) by (apply Qmult_le_compat_r; lra). eapply Qle_trans; [exact A1|].
  rewrite Es. replace (1 - Z.of_nat w) with (- (Z.of_nat w - 1)) by lia.
  assert (I : (qpow2 (Z.of_nat w) * (1 # 2) * qpow2 (- (Z.of_nat w - 1)) == 1)%Q).
  { rewrite <- qpow2_half, <- qpow2_add. replace (_ + _) with 0 by lia. reflexivity. }
  pose proof (qpow2_pos (- (Z.of_nat w - 1))) as Pn. set (k := (qpow2 (Z.of_nat w) * (1 # 2))%Q) in *. set (k' := qpow2 (- (Z.of_nat w - 1))) in *.
  set (p := qpow2 rs) in *. clear - N1 I P Pn. clearbody k k' p t.
  assert (E : (1 * p == k * (p * k'))%Q) by (assert (E0 : (k * (p * k') == k * k' * p)%Q) by ring; rewrite E0, I; reflexivity). rewrite E.
  assert (E1 : (t * p * k' == t * (p * k'))%Q) by ring. rewrite E1. apply Qmult_le_compat_r; [lra|]. apply Qmult_le_0_compat; lra.
Qed.
Lemma tlut_mantissa_zero w t cyc x : 1 <= cyc -> (x == 0)%Q -> (tlut_mantissa w t cyc x == 0)%Q.
Proof.
  intros Hc Z0. unfold tlut_mantissa, qfrexp. rewrite (proj2 (Qeq_bool_iff x 0) Z0). unfold qshl at 1 2.
  assert (E : (tlut_loop (tlut_degree w t) (Z.of_nat t) cyc (qshl 0 (Z.of_nat w)) 0 == 0)%Q).
  { rewrite (tlut_loop_comp _ _ _ _ (inject_Z 0) 0 0); [|unfold qshl; rewrite Qmult_0_l; reflexivity|reflexivity].
    rewrite tlut_loop_Z by exact Hc. change (Z.sgn 0) with 0. rewrite Z.mul_0_l. change (inject_Z 0) with 0%Q. unfold Qdiv. apply Qmult_0_l. }
  rewrite E. ring.
Qed.
Lemma tlut_mantissa_error w t x : (1 <= t)%nat -> (1 <= w)%nat -> (Qabs (x - tlut_mantissa w t (p2 t) x) <= Qabs x * Qpower 2 (1 - Z.of_nat w))%Q.
Proof.
  intros Ht Hw. change (Qpower 2) with qpow2. pose proof (Qabs_nonneg x) as A0. pose proof (qpow2_pos (1 - Z.of_nat w)) as P0. destruct (Qeq_dec x 0) as [Z0|NZ].
  - pose proof (tlut_mantissa_zero w t (p2 t) x (p2_ge_1 t) Z0) as E. rewrite E, Z0. change (Qabs (0 - 0)) with 0%Q. change (Qabs 0) with 0%Q. lra.
  - assert (Xp : (0 < Qabs x)%Q) by (destruct (Qlt_le_dec x 0); [rewrite Qabs_neg by lra; lra|rewrite Qabs_pos by lra; destruct (Qle_lt_or_eq _ _ q) as [L|L]; [exact L|exfalso; apply NZ; symmetry; exact L]]).
    destruct (qlog2_floor_spec (Qabs x) Xp) as [L U]. set (k := qlog2_floor (Qabs x)) in *.
    destruct (tlut_mantissa_full w t x (k + 1) Ht Hw) as (S1 & S2 & S3 & _).
    { change (Qpower 2) with qpow2. replace (k + 1 - 1) with k by lia. exact L. }
    { exact U. }
    set (y := tlut_mantissa w t (p2 t) x) in *. clearbody y. change (Qpower 2) with qpow2 in *. replace (k + 1 - Z.of_nat w) with (k + (1 - Z.of_nat w)) in S3 by lia.
    rewrite qpow2_add in S3. set (u := qpow2 (1 - Z.of_nat w)) in *. set (g := qpow2 k) in *. clearbody u g.
    assert (G : (g * u <= Qabs x * u)%Q) by (apply Qmult_le_compat_r; lra).
    assert (K : (Qabs (x - y) == Qabs x - Qabs y)%Q).
    { clear - S1 S2 Xp. destruct (Qlt_le_dec x 0) as [X|X]; destruct (Qlt_le_dec y 0) as [Y|Y].
      - rewrite (Qabs_neg x), (Qabs_neg y) in * by lra. rewrite Qabs_neg; lra.
      - rewrite (Qabs_neg x), (Qabs_pos y) in * by lra. assert (y == 0)%Q by nra. rewrite Qabs_neg; lra.
      - rewrite (Qabs_pos x), (Qabs_neg y) in * by lra. exfalso. nra.
      - rewrite (Qabs_pos x), (Qabs_pos y) in * by lra. rewrite Qabs_pos; lra. }
    rewrite K. lra.
Qed.

Lemma dot_relative n x x' y y' X W ei ew : (0 <= X)%Q -> (0 <= W)%Q -> (0 <= ei)%Q -> (0 <= ew)%Q ->
  (forall i, (i < n)%nat -> (Qabs (x i) <= X)%Q /\ (Qabs (x i - x' i) <= X * ei)%Q) -> (forall i, (i < n)%nat -> (Qabs (y i) <= W)%Q /\ (Qabs (y i - y' i) <= W * ew)%Q) ->
  (Qabs (dotq n x' y' - dotq n x y) <= inject_Z (Z.of_nat n) * X * W * (ei + (1 + ei) * ew))%Q.
Proof.
  intros X0 W0 I0 J0 Hx Hy. assert (D0 : (0 <= X * ei)%Q) by (apply Qmult_le_0_compat; assumption). assert (D1 : (0 <= W * ew)%Q) by (apply Qmult_le_0_compat; assumption).
  eapply Qle_trans.
  - apply (dot_error n x x' y y' (X * ei) (W * ew)); [exact D0|intros i Hi; apply Hx; exact Hi|intros i Hi; apply Hy; exact Hi].
  - apply sum_relative; try assumption; try apply Qle_refl; [intros i Hi; apply Hx; exact Hi|intros i Hi; apply Hy; exact Hi].
Qed.
Theorem tlut_converges : forall temporal formati formatw widthi widthw widtht qi qw rnd c B n no input weight bias out X W ei ew,
  tlut_new temporal formati formatw widthi widthw widtht qi qw None rnd true = Ok c ->
  (named rnd ["ceil"]%string \/ ~ named formati ["fxp"]%string /\ ~ named formatw ["fxp"]%string) ->
  (1 <= widthi)%nat -> (1 <= widthw)%nat -> (1 <= widtht)%nat -> (qi == 1)%Q -> (qw == 1)%Q ->
  qshape B n input -> qshape no n weight -> bias_ok no bias -> is_max_abs (concat input) X -> is_max_abs (concat weight) W ->
  tlut_apply c input weight bias = Ok (Some out) -> tlut_steps temporal formati formatw widthi widthw ei ew ->
  forall b o, (b < B)%nat -> (o < no)%nat ->
    (Qabs (qentry out b o - (dotq n (qentry input b) (qentry weight o) + bias_entry bias o)) <=
     inject_Z (Z.of_nat n) * X * W * (ei + (1 + ei) * ew))%Q.
Proof.
  intros temporal formati formatw widthi widthw widtht qi qw rnd c B n no input weight bias out X W ei ew Ec Hrnd Hwi Hww Ht Hqi Hqw Hi Hw Hb HX HW Ho St b o Lb Lo.
  destruct (tlut_config _ _ _ _ _ _ _ _ _ _ _ _ Ec) as (Ct & Cm & Cf & Ci & Cw & Ctt & Cwd & Cc & _ & _ & Cr & _ & Cqi & Cqw). specialize (Cc eq_refl).
  destruct (quantile_scale_spec (concat input) qi X HX) as [Ei _]. destruct (quantile_scale_spec (concat weight) qw W HW) as [Ew _].
  specialize (Ei Hqi). specialize (Ew Hqw).
  assert (X0 : (0 <= X)%Q) by (destruct HX as [(y & _ & E) _]; rewrite <- E; apply Qabs_nonneg).
  assert (W0 : (0 <= W)%Q) by (destruct HW as [(y & _ & E) _]; rewrite <- E; apply Qabs_nonneg).
  assert (Bx : forall i, (i < n)%nat -> (Qabs (qentry input b i) <= X)%Q) by (intros i Li; rewrite <- Ei; apply (scale_bounds_entry B n); assumption).
  assert (Bw : forall i, (i < n)%nat -> (Qabs (qentry weight o i) <= W)%Q) by (intros i Li; rewrite <- Ew; apply (scale_bounds_entry no n); assumption).
  assert (E0 : forall m, (0 <= Qpower 2 m)%Q) by (intros m; apply Qlt_le_weak, (qpow2_pos m)).
  assert (Hid : forall (K x : Q), (0 <= K)%Q -> (Qabs (x - x) <= K * 0)%Q) by (intros K x HK; assert (Z : (x - x == 0)%Q) by ring; rewrite Z; change (Qabs 0) with 0%Q; lra).
  (* the shifts *)
  assert (Hs : exists ri rw ro, (tc_mode c <> FpFp -> rshift_offset (concat input) (concat weight)
     (Z.of_nat (match tc_mode c with FxpFxp => tc_widthi c | _ => tc_width c end))
     (Z.of_nat (match tc_mode c with FxpFxp => tc_widthw c | _ => tc_width c end)) (tc_round c) (tc_qi c) (tc_qw c) = Ok (Some (ri, rw, ro)))).
  { unfold tlut_apply in Ho. destruct (tc_mode c).
    - destruct (rshift_offset _ _ _ _ _ _ _) as [[[[ri rw] ro]|]|] eqn:Er; cbn [bind] in Ho; try discriminate. exists ri, rw, ro. auto.
    - destruct (rshift_offset _ _ _ _ _ _ _) as [[[[ri rw] ro]|]|] eqn:Er; cbn [bind] in Ho; try discriminate. exists ri, rw, ro. auto.
    - exists 0, 0, 0. congruence. }
  destruct Hs as (ri & rw & ro & Er).
  destruct (tlut_apply_taps c B n no input weight bias ri rw ro Hi Hw Hb Er) as (out' & Eo & Out). assert (out' = out) as -> by congruence.
  rewrite (Out b o Lb Lo).
  assert (Hc : tc_mode c <> FpFp -> tc_round c = RCeil).
  { intros M. apply Cr. destruct Hrnd as [H|H]; [exact H|]. exfalso. apply M, Cf, H. }
  assert (Nrm : tc_mode c <> FpFp -> above_and_upto (Z.of_nat (match tc_mode c with FxpFxp => tc_widthi c | _ => tc_width c end)) (quantile_scale (concat input) qi / Qpower 2 ri) /\
                          above_and_upto (Z.of_nat (match tc_mode c with FxpFxp => tc_widthw c | _ => tc_width c end)) (quantile_scale (concat weight) qw / Qpower 2 rw)).
  { intros M. specialize (Er M). rewrite (Hc M), Cqi, Cqw in Er. apply (rshift_inv _ _ _ _ _ _ _ _ _ _ Er). }
  assert (Key : (Qabs (dotq n (fun i => tlut_left c ri (qentry input b i)) (fun i => tlut_right c rw (qentry weight o i)) - dotq n (qentry input b) (qentry weight o)) <=
     inject_Z (Z.of_nat n) * X * W * (ei + (1 + ei) * ew))%Q).
  { assert (Full : forall w r x, (tlut_temporal w (tc_widtht c) (tc_cycle c) r x == tlut_plain w r x)%Q).
    { intros w r x. rewrite Ctt, Cc. apply tlut_temporal_full. exact Ht. }
    assert (Mant : forall w x, (1 <= w)%nat -> (Qabs (x - tlut_mantissa w (tc_widtht c) (tc_cycle c) x) <= Qabs x * Qpower 2 (1 - Z.of_nat w))%Q).
    { intros w x Hw1. rewrite Ctt, Cc. apply tlut_mantissa_error; assumption. }
    assert (PX : forall w x, (Qabs x <= X)%Q -> above_and_upto (Z.of_nat w) (quantile_scale (concat input) qi / Qpower 2 ri) ->
                 (Qabs (x - tlut_plain w ri x) <= X * Qpower 2 (1 - Z.of_nat w))%Q).
    { intros w x Hx Ha. eapply Qle_trans; [apply (tlut_plain_error w ri _ x Ha); rewrite Ei; exact Hx|]. rewrite Ei. apply Qle_refl. }
    assert (PW : forall w x, (Qabs x <= W)%Q -> above_and_upto (Z.of_nat w) (quantile_scale (concat weight) qw / Qpower 2 rw) ->
                 (Qabs (x - tlut_plain w rw x) <= W * Qpower 2 (1 - Z.of_nat w))%Q).
    { intros w x Hx Ha. eapply Qle_trans; [apply (tlut_plain_error w rw _ x Ha); rewrite Ew; exact Hx|]. rewrite Ew. apply Qle_refl. }
    destruct St as [(Fx & -> & ->)|[(NF & Nt & (m & Sg & ->) & ->)|(NF & Nt & -> & (m & Sg & ->))]].
    - pose proof (proj2 Cm Fx) as M. rewrite M in *. specialize (Nrm ltac:(discriminate)). destruct Nrm as [Ni Nw]. rewrite Ci in *. rewrite Cw in *.
      replace (2 - Z.of_nat widthi) with (1 - Z.of_nat (widthi - 1)) by lia. replace (2 - Z.of_nat widthw) with (1 - Z.of_nat (widthw - 1)) by lia.
      apply dot_relative; auto; unfold tlut_left, tlut_right; rewrite M, ?Ci, ?Cw; intros i Li; (split; [auto|]).
      + destruct (tc_tin c); [rewrite Full|]; apply PX; auto.
      + destruct (tc_tin c); [|rewrite Full]; apply PW; auto.
    - pose proof (proj2 Ct Nt) as T. rewrite T in *.
      assert (Em : m = tc_width c).
      { pose proof (proj1 (tlut_new_ok _ _ _ _ _ _ _ _ _ _ _ _) Ec) as (tin' & fi & fw & r' & _ & Fi & _). rewrite (significand_fmt _ _ _ _ Fi Sg). symmetry. apply (significand_fmt _ _ _ _ Fi Cwd). }
      rewrite Em in *. destruct (tc_mode c) eqn:M; [exfalso; apply NF, Cm; reflexivity| |].
      + specialize (Nrm ltac:(discriminate)). destruct Nrm as [Ni _].
        apply dot_relative; auto; try apply Qle_refl; unfold tlut_left, tlut_right; rewrite M, T; intros i Li; (split; [auto|]); [|apply Hid; exact W0].
        rewrite Full. apply PX; auto.
      + apply dot_relative; auto; try apply Qle_refl; unfold tlut_left, tlut_right; rewrite M, T; intros i Li; (split; [auto|]); [|apply Hid; exact W0].
        eapply Qle_trans; [apply Mant|].
        * destruct (proj1 Cf eq_refl) as [Nf _]. destruct Sg as [[N _]|[[_ ->]|[[_ ->]|[_ ->]]]]; [contradiction|lia|lia|lia].
        * apply Qmult_le_compat_r; auto.
    - assert (T : tc_tin c = false).
      { pose proof (proj1 (tlut_new_ok _ _ _ _ _ _ _ _ _ _ _ _) Ec) as (tin' & fi & fw & r' & Tp & _). destruct (tc_tin c) eqn:T; [|reflexivity].
        pose proof (proj2 (temporal_named temporal true) (proj1 Ct eq_refl)) as T1. pose proof (proj2 (temporal_named temporal false) Nt) as T2. congruence. }
      rewrite T in *.
      assert (Em : m = tc_width c).
      { pose proof (proj1 (tlut_new_ok _ _ _ _ _ _ _ _ _ _ _ _) Ec) as (tin' & fi & fw & r' & _ & _ & Fw & _). rewrite (significand_fmt _ _ _ _ Fw Sg). symmetry. apply (significand_fmt _ _ _ _ Fw Cwd). }
      rewrite Em in *. destruct (tc_mode c) eqn:M; [exfalso; apply NF, Cm; reflexivity| |].
      + specialize (Nrm ltac:(discriminate)). destruct Nrm as [_ Nw].
        apply dot_relative; auto; try apply Qle_refl; unfold tlut_left, tlut_right; rewrite M, T; intros i Li; (split; [auto|]); [apply Hid; exact X0|].
        rewrite Full. apply PW; auto.
      + apply dot_relative; auto; try apply Qle_refl; unfold tlut_left, tlut_right; rewrite M, T; intros i Li; (split; [auto|]); [apply Hid; exact X0|].
        eapply Qle_trans; [apply Mant|].
        * destruct (proj1 Cf eq_refl) as [_ Nf]. destruct Sg as [[N _]|[[_ ->]|[[_ ->]|[_ ->]]]]; [contradiction|lia|lia|lia].
        * apply Qmult_le_compat_r; auto. }
  match goal with |- (Qabs (?d' + ?be - (?d + ?be)) <= _)%Q => assert (E : (d' + be - (d + be) == d' - d)%Q) by ring; rewrite E end. exact Key.
Qed.

(** The default rounding clips here too. *)
Theorem tlut_round_clips : forall temporal formati formatw widthi widthw widtht rnd c,
  tlut_new temporal formati formatw widthi widthw widtht 1 1 None rnd true = Ok c ->
  named formati ["fxp"]%string -> named formatw ["fxp"]%string -> named rnd ["round"]%string -> (1 <= widtht)%nat ->
  exists v, tlut_apply c [[7 # 5]]%Q [[7 # 5]]%Q None = Ok (Some [[v]]) /\ (v < 1)%Q.
Proof.
  intros temporal formati formatw widthi widthw widtht rnd c Ec Fi Fw Hr Ht.
  destruct (tlut_config _ _ _ _ _ _ _ _ _ _ _ _ Ec) as (_ & Cm & _ & Ci & Cw & Ctt & _ & Cc & _ & Cr & _ & _ & Cqi & Cqw). specialize (Cc eq_refl).
  assert (M : tc_mode c = FxpFxp) by (apply Cm; auto). assert (R : tc_round c = RRound) by (apply Cr; exact Hr).
  set (wi := tc_widthi c) in *. set (ww := tc_widthw c) in *.
  assert (Er : exists ro, rshift_offset [7 # 5]%Q [7 # 5]%Q (Z.of_nat wi) (Z.of_nat ww) RRound 1 1 = Ok (Some (- Z.of_nat wi, - Z.of_nat ww, ro))).
  { unfold rshift_offset. cbv zeta. set (s := quantile_scale [7 # 5]%Q 1). assert (Z1 : Qle_bool s 0 = false) by (vm_compute; reflexivity).
    assert (Z2 : log2_rounded RRound s = 0) by (vm_compute; reflexivity). rewrite Z1, Z2. cbn [orb]. eexists. do 4 f_equal; lia. }
  destruct Er as [ro Er].
  assert (Er' : tc_mode c <> FpFp -> rshift_offset (concat [[7 # 5]]%Q) (concat [[7 # 5]]%Q)
     (Z.of_nat (match tc_mode c with FxpFxp => tc_widthi c | _ => tc_width c end))
     (Z.of_nat (match tc_mode c with FxpFxp => tc_widthw c | _ => tc_width c end)) (tc_round c) (tc_qi c) (tc_qw c) = Ok (Some (- Z.of_nat wi, - Z.of_nat ww, ro))).
  { intros _. rewrite M, R, Cqi, Cqw. change (concat [[7 # 5]]%Q) with [7 # 5]%Q. exact Er. }
  assert (Small : forall w, (0 <= tlut_plain w (- Z.of_nat w) (7 # 5) < 1)%Q).
  { intros w. destruct (tlut_quant_spec w (- Z.of_nat w) (7 # 5)) as (_ & _ & T & _). unfold tlut_plain, qshl. change (Qpower 2) with qpow2 in *.
    pose proof (qpow2_pos (- Z.of_nat w)) as Pn. pose proof (qpow2_pos (Z.of_nat w)) as Pw. pose proof (p2_ge_1 w) as P1.
    assert (I : (qpow2 (- Z.of_nat w) * qpow2 (Z.of_nat w) == 1)%Q) by (rewrite <- qpow2_add; replace (- Z.of_nat w + Z.of_nat w) with 0 by lia; reflexivity).
    assert (PQ : (qpow2 (Z.of_nat w) == inject_Z (p2 w))%Q) by (apply qpow2_Z; lia).
    assert (Ek : (inject_Z (p2 w - 1) == qpow2 (Z.of_nat w) - 1)%Q) by (rewrite PQ; unfold Z.sub; rewrite inject_Z_plus; reflexivity).
    assert (K0 : (0 <= inject_Z (p2 w - 1))%Q) by (change 0%Q with (inject_Z 0); apply inject_Z_le_iff; lia).
    rewrite T.
    - set (a := qpow2 (Z.of_nat w)) in *. set (b := qpow2 (- Z.of_nat w)) in *. set (k := inject_Z (p2 w - 1)) in *. clearbody a b k. clear - K0 Ek I Pn Pw.
      split; [apply Qmult_le_0_compat; lra|]. rewrite Ek. assert (E : ((a - 1) * b == b * a - b)%Q) by ring. rewrite E, I. lra.
    - assert (E : ((7 # 5) / qpow2 (- Z.of_nat w) == (7 # 5) * qpow2 (Z.of_nat w))%Q).
      { set (a := qpow2 (Z.of_nat w)) in *. set (b := qpow2 (- Z.of_nat w)) in *. clearbody a b. assert (E1 : ((7 # 5) / b == (7 # 5) / b * (b * a))%Q) by (rewrite I; ring). rewrite E1. field. lra. }
      rewrite E, Ek. lra. }
  assert (Full : forall w r x, (tlut_temporal w (tc_widtht c) (tc_cycle c) r x == tlut_plain w r x)%Q).
  { intros w r x. rewrite Ctt, Cc. apply tlut_temporal_full. exact Ht. }
  rewrite (tlut_apply_eq c _ _ None _ _ _ Er'). eexists. split; [reflexivity|].
  change (tlut_left c (- Z.of_nat wi) (7 # 5) * tlut_right c (- Z.of_nat ww) (7 # 5) + 0 < 1)%Q.
  assert (L : (0 <= tlut_left c (- Z.of_nat wi) (7 # 5) < 1)%Q).
  { pose proof (Small wi) as S. unfold tlut_left. rewrite M. fold wi. destruct (tc_tin c); [rewrite Full|]; exact S. }
  assert (L' : (0 <= tlut_right c (- Z.of_nat ww) (7 # 5) < 1)%Q).
  { pose proof (Small ww) as S. unfold tlut_right. rewrite M. fold ww. destruct (tc_tin c); [|rewrite Full]; exact S. }
  set (x := tlut_left _ _ _) in *. set (y := tlut_right _ _ _) in *. clearbody x y. clear - L L'.
  assert (x * y <= x * 1)%Q by (rewrite !(Qmult_comm x); apply Qmult_le_compat_r; lra). lra.
Qed.

(** When there is an output at all. *)
Theorem hub_total : forall l input X W, is_max_abs (concat input) X -> is_max_abs (concat (hl_weight l)) W -> (hl_qi l == 1)%Q -> (hl_qw l == 1)%Q ->
  ((0 < X)%Q /\ (0 < W)%Q -> exists out, hublin_forward l input = Ok (Some out)) /\
  ((X == 0)%Q \/ (W == 0)%Q -> hublin_forward l input = Ok None).
Proof.
  intros l input X W HX HW Hqi Hqw. unfold hublin_forward.
  assert (NEi : concat input <> []) by (intros E; rewrite E in HX; destruct HX as [(y & [] & _) _]).
  assert (NEw : concat (hl_weight l) <> []) by (intros E; rewrite E in HW; destruct HW as [(y & [] & _) _]).
  destruct (quantile_scale_spec (concat input) (hl_qi l) X HX) as [Ei _]. destruct (quantile_scale_spec (concat (hl_weight l)) (hl_qw l) W HW) as [Ew _].
  specialize (Ei Hqi). specialize (Ew Hqw).
  destruct (rshift_offset_spec (concat input) (concat (hl_weight l)) (Z.of_nat (hl_widthi l) - 1) (Z.of_nat (hl_widthw l) - 1) (hl_round l) (hl_qi l) (hl_qw l) NEi NEw) as [Z0 Z1].
  split.
  - intros [X0 W0]. destruct Z1 as (ri & rw & ro & E & _); [rewrite Ei; lra|rewrite Ew; lra|]. rewrite E. cbn [bind]. eexists. reflexivity.
  - intros H. rewrite Z0; [reflexivity|]. rewrite Ei, Ew. exact H.
Qed.
