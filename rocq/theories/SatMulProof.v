(** Proofs for C83: the multiplier whose second factor is a stream. *)
From Coq Require Import String Lqa.
Require Import Verif.BaseLemmas Verif.AddProof Verif.SobolProof Verif.GenModel Verif.GenProof Verif.KernelModel Verif.KernelProof Verif.HubProof
  Verif.LinearModel Verif.LinearProof Verif.ChainSpec Verif.ChainProof Verif.NameSpec Verif.NameProof Verif.NewSpec Verif.ProgSpec Verif.ProgProof Verif.NetSpec Verif.NetProof
  Verif.SatSpec Verif.SatProof Verif.SatLinProof.
Open Scope Z_scope.

Definition n1 (h : list (Z * Z)) (t : nat) : nat := Z.to_nat (ones (map fst (firstn t h))).
Definition n0 (h : list (Z * Z)) (t : nat) : nat := Z.to_nat (zeros (map fst (firstn t h))).
Definition tail0 (m : mode) (rng : list Z) (B : Z) (a b : nat) : Z :=
  match m with Unipolar => 0 | Bipolar => Z.of_nat b - Z.of_nat a - (below rng B b - below rng B a) end.

Definition one_at (h : list (Z * Z)) (t : nat) : bool := fst (nth t h (0, 0)) =? 1.
Lemma n1_step h t : pair_bits h -> (t < length h)%nat -> n1 h (t + 1) = (n1 h t + (if one_at h t then 1 else 0))%nat /\ n0 h (t + 1) = (n0 h t + (if one_at h t then 0 else 1))%nat.
Proof.
  intros Hb Ht. unfold n1, n0, one_at. rewrite Nat.add_1_r, (firstn_S_nth h t (0, 0) Ht), map_app, ones_app, zeros_app. cbn [map].
  assert (B : bit (fst (nth t h (0, 0)))) by (unfold pair_bits in Hb; rewrite Forall_forall in Hb; apply Hb, nth_In, Ht).
  pose proof (ones_nonneg (map fst (firstn t h))). pose proof (zeros_nonneg (map fst (firstn t h))).
  destruct B as [->| ->]; cbn [Z.eqb Pos.eqb].
  - change (ones [0]) with 0. change (zeros [0]) with 1. split; lia.
  - change (ones [1]) with 1. change (zeros [1]) with 0. split; lia.
Qed.

Lemma is_steps m w rng h lo hi s : length rng = (2 ^ w)%nat -> pair_bits h -> forall k, (s + k <= length h)%nat ->
  (forall t, (s <= t < s + k)%nat -> lo <= ones (window w (map snd (firstn t h))) <= hi) ->
  let O := outs (fsumul_is_step m w rng) (fsumul_is_init w) h in let e := (s + k)%nat in
  below rng lo (n1 h e) - below rng lo (n1 h s) + tail0 m rng hi (n0 h s) (n0 h e)
  <= ones (firstn e O) - ones (firstn s O) <=
  below rng hi (n1 h e) - below rng hi (n1 h s) + tail0 m rng lo (n0 h s) (n0 h e).
Proof.
  intros Hl Hb k. induction k as [|k IH]; intros Hk Hw O e.
  - subst e. rewrite Nat.add_0_r. unfold tail0. destruct m; lia.
  - specialize (IH ltac:(lia) ltac:(intros t Ht; apply Hw; lia)). cbv zeta in IH. fold O in IH.
    subst e. replace (s + Datatypes.S k)%nat with (s + k + 1)%nat by lia. set (t := (s + k)%nat) in *.
    destruct (n1_step h t Hb ltac:(lia)) as [-> ->].
    assert (LO : length O = length h) by apply outs_length.
    pose proof (is_out m w rng h t Hl Hb ltac:(lia)) as E. cbv zeta in E. fold O in E. specialize (Hw t ltac:(lia)).
    change (ones (map fst (firstn t h))) with (ones (map fst (firstn t h))) in E. fold (n1 h t) (n0 h t) in E. set (W := ones (window w (map snd (firstn t h)))) in *.
    rewrite Nat.add_1_r, (firstn_S_nth O t 0) by lia. fold (one_at h t) in E. rewrite ones_app, E. clear E. clearbody t W.
    destruct (one_at h t).
    + rewrite Nat.add_0_r. rewrite !Nat.add_1_r, !below_S.
      assert (ones [b2z (cyc rng (n1 h t) <? W)] = b2z (cyc rng (n1 h t) <? W)) as -> by (destruct (cyc rng (n1 h t) <? W); reflexivity).
      assert (b2z (cyc rng (n1 h t) <? lo) <= b2z (cyc rng (n1 h t) <? W) <= b2z (cyc rng (n1 h t) <? hi)).
      { destruct (Z.ltb_spec (cyc rng (n1 h t)) lo), (Z.ltb_spec (cyc rng (n1 h t)) W), (Z.ltb_spec (cyc rng (n1 h t)) hi); cbn [b2z]; lia. }
      lia.
    + rewrite Nat.add_0_r. destruct m; cbn [tail0] in *.
      * change (ones [0]) with 0. lia.
      * rewrite !Nat.add_1_r, !below_S.
        assert (ones [1 - b2z (cyc rng (n0 h t) <? W)] = 1 - b2z (cyc rng (n0 h t) <? W)) as -> by (destruct (cyc rng (n0 h t) <? W); reflexivity).
        assert (b2z (cyc rng (n0 h t) <? lo) <= b2z (cyc rng (n0 h t) <? W) <= b2z (cyc rng (n0 h t) <? hi)).
        { destruct (Z.ltb_spec (cyc rng (n0 h t)) lo), (Z.ltb_spec (cyc rng (n0 h t)) W), (Z.ltb_spec (cyc rng (n0 h t)) hi); cbn [b2z]; lia. }
        lia.
Qed.

Lemma window_stretch w (hp h2 : list (Z * Z)) t : (2 ^ w <= t)%nat -> (t <= length h2)%nat ->
  window w (map snd (firstn (length hp + t) (hp ++ h2))) = stretch (t - 2 ^ w) t (map snd h2).
Proof.
  intros H1 H2. unfold window, recent, lastn, stretch. rewrite firstn_app_2, map_app.
  assert (L : length (alternating (2 ^ w)) = (2 ^ w)%nat) by (unfold alternating; rewrite map_length, seq_length; reflexivity).
  assert (Lf : length (map snd (firstn t h2)) = t) by (rewrite map_length, firstn_length; lia).
  rewrite app_assoc. set (P := alternating (2 ^ w) ++ map snd hp). rewrite app_length, Lf.
  rewrite skipn_app. rewrite skipn_all2 by (unfold P; rewrite app_length, L; lia). cbn [app].
  rewrite firstn_map. f_equal. lia.
Qed.

Lemma grid_le w x T B k : x * p2 w <= T * B + k * p2 w -> (inject_Z x <= inject_Z T * (inject_Z B / inject_Z (p2 w)) + inject_Z k)%Q.
Proof.
  intros H. pose proof (inj_pos _ (p2_pos w)) as P. rewrite Zle_Qle in H. rewrite inject_Z_plus, !inject_Z_mult in H. set (M := inject_Z (p2 w)) in *.
  apply (Qmult_le_r _ _ M P). assert (E : ((inject_Z T * (inject_Z B / M) + inject_Z k) * M == inject_Z T * inject_Z B + inject_Z k * M)%Q) by (field; lra). rewrite E. exact H.
Qed.
Lemma grid_ge w x T B k : T * B <= x * p2 w + k * p2 w -> (inject_Z T * (inject_Z B / inject_Z (p2 w)) <= inject_Z x + inject_Z k)%Q.
Proof.
  intros H. pose proof (inj_pos _ (p2_pos w)) as P. rewrite Zle_Qle in H. rewrite inject_Z_plus, !inject_Z_mult in H. set (M := inject_Z (p2 w)) in *.
  apply (Qmult_le_r _ _ M P). assert (E : (inject_Z T * (inject_Z B / M) * M == inject_Z T * inject_Z B)%Q) by (field; lra). rewrite E, Qmult_plus_distr_l. exact H.
Qed.

Lemma prod_prob_in m u v : (0 <= u <= 1)%Q -> (0 <= v <= 1)%Q -> (0 <= prod_prob m u v <= 1)%Q.
Proof. intros Hu Hv. unfold prod_prob. destruct m; split; nra. Qed.

Lemma mul_l (x a b : Q) : (0 <= x)%Q -> (a <= b)%Q -> (x * a <= x * b)%Q.
Proof. intros Hx H. rewrite !(Qmult_comm x). apply Qmult_le_compat_r; assumption. Qed.
Lemma mul_within (x c B : Q) : (- B <= x <= B)%Q -> (-1 <= c <= 1)%Q -> (- B <= x * c <= B)%Q.
Proof. intros H Hc. apply qabs_le. rewrite Qabs_Qmult. apply qabs_le in H. apply (qabs_le c 1) in Hc. pose proof (Qabs_nonneg x). pose proof (Qabs_nonneg c). nra. Qed.

Lemma thresholds w (u D : Q) : (0 <= u <= 1)%Q -> (0 <= D)%Q -> exists lo hi,
  0 <= lo <= p2 w /\ 0 <= hi <= p2 w /\ (inject_Z hi / inject_Z (p2 w) <= u + D / inject_Z (p2 w))%Q /\ (u - D / inject_Z (p2 w) <= inject_Z lo / inject_Z (p2 w))%Q /\
  forall W, 0 <= W <= p2 w -> (Qabs (inject_Z W - inject_Z (p2 w) * u) <= D)%Q -> lo <= W <= hi.
Proof.
  intros Hu HD. pose proof (p2_pos w) as P. pose proof (inj_pos _ P) as PQ. set (M := inject_Z (p2 w)) in *.
  exists (Z.max 0 (Qceiling (M * u - D))), (Z.min (p2 w) (Qfloor (M * u + D))).
  assert (C1 : Qceiling (M * u - D) <= p2 w).
  { rewrite <- (Qceiling_Z (p2 w)). apply Qceiling_resp_le. fold M. nra. }
  assert (C2 : 0 <= Qfloor (M * u + D)).
  { change 0 with (Qfloor (inject_Z 0)). apply Qfloor_resp_le. change (inject_Z 0) with 0%Q. nra. }
  split; [lia|]. split; [lia|].
  assert (DM : (D / M * M == D)%Q) by (field; lra).
  split; [|split].
  - apply (Qmult_le_r _ _ M PQ). rewrite Qmult_plus_distr_l, DM. assert (E : forall z, (inject_Z z / M * M == inject_Z z)%Q) by (intros z; field; lra). rewrite E.
    eapply Qle_trans; [|rewrite (Qmult_comm u); apply Qfloor_le]. rewrite <- Zle_Qle. lia.
  - apply (Qmult_le_r _ _ M PQ). assert (E : forall z, (inject_Z z / M * M == inject_Z z)%Q) by (intros z; field; lra). rewrite E.
    assert (E2 : ((u - D / M) * M == M * u - D)%Q) by (field; lra). rewrite E2. eapply Qle_trans; [apply Qle_ceiling|]. rewrite <- Zle_Qle. lia.
  - intros W HW HD'. apply qabs_le in HD'. split.
    + assert (Qceiling (M * u - D) <= W); [|lia]. pose proof (Qceiling_resp_le (M * u - D) (inject_Z W) ltac:(lra)) as C. rewrite Qceiling_Z in C. exact C.
    + assert (W <= Qfloor (M * u + D)); [|lia]. pose proof (Qfloor_resp_le (inject_Z W) (M * u + D) ltac:(lra)) as C. rewrite Qfloor_Z in C. exact C.
Qed.

Theorem instream_flow : forall m ext w d hp h2 u0 u1 q0 K0 q1 K1,
  (w <= 30)%nat -> dirvec_ok 30 (ext_dirvec ext d) -> pair_bits hp -> pair_bits h2 ->
  (0 <= u0 <= 1)%Q -> (0 <= u1 <= 1)%Q -> (0 <= q0)%Q -> (0 <= q1)%Q ->
  flow (length h2) u0 q0 K0 (counts (map fst h2)) -> flow (length h2) u1 q1 K1 (counts (map snd h2)) ->
  flow (length h2) (prod_prob m u0 u1) (q0 + q1 + K1 / inject_Z (p2 w)) (K0 + layer_slack m w true + inject_Z (p2 w))
    (counts (skipn (length hp) (outs (fsumul_is_step m w (rng_seq ext KSobol w d)) (fsumul_is_init w) (hp ++ h2)))).
Proof.
  intros m ext w d hp h2 u0 u1 q0 K0 q1 K1 Hw HV Hp H2 Hu0 Hu1 Hq0 Hq1 F0 F1.
  pose proof (flow_K _ _ _ _ _ F0) as HK0. pose proof (flow_K _ _ _ _ _ F1) as HK1.
  set (rng := rng_seq ext KSobol w d). set (h := hp ++ h2). set (O := outs (fsumul_is_step m w rng) (fsumul_is_init w) h).
  pose proof (rng_sobol_perm ext w d Hw HV) as HP.
  assert (Hl : length rng = (2 ^ w)%nat) by (unfold rng; rewrite (Permutation_length HP), len_zrange; reflexivity).
  assert (Hb : pair_bits h) by (apply Forall_app; split; assumption).
  assert (LO : length O = length h) by apply outs_length.
  assert (Lh : length h = (length hp + length h2)%nat) by apply app_length.
  assert (PN : Z.of_nat (2 ^ w) = p2 w) by (unfold p2; rewrite Nat2Z.inj_pow; reflexivity).
  pose proof (p2_pos w) as P. pose proof (inj_pos _ P) as PQ. set (M := inject_Z (p2 w)) in *.
  pose proof (slack_pos m w true) as SL. pose proof (prod_prob_in m u0 u1 Hu0 Hu1) as PP.
  assert (HD : (0 <= q1 * M + K1)%Q) by nra.
  destruct (thresholds w u1 (q1 * M + K1) Hu1 HD) as (lo & hi & Hlo & Hhi & Thi & Tlo & Hin). fold M in Thi, Tlo, Hin.
  assert (ED : ((q1 * M + K1) / M == q1 + K1 / M)%Q) by (field; lra). rewrite ED in Thi, Tlo. clear ED.
  assert (K1M : (0 <= K1 / M)%Q) by (apply Qle_shift_div_l; lra).
  set (dl := (q1 + K1 / M)%Q) in *. assert (Hdl : (0 <= dl)%Q) by (unfold dl; lra).
  assert (Ecnt : forall t, (t <= length h2)%nat -> (counts (skipn (length hp) O) t == inject_Z (ones (firstn (length hp + t) O)) - inject_Z (ones (firstn (length hp) O)))%Q).
  { intros t Ht. unfold counts. assert (L1 : length (firstn (length hp) O) = length hp) by (rewrite firstn_length; lia).
    assert (E : firstn (length hp + t) O = firstn (length hp) O ++ firstn t (skipn (length hp) O)).
    { rewrite <- (firstn_skipn (length hp) O) at 1. rewrite <- L1 at 1. apply firstn_app_2. }
    rewrite E, ones_app, inject_Z_plus. ring. }
  assert (N1 : forall t, (t <= length h2)%nat -> (inject_Z (Z.of_nat (n1 h (length hp + t))) == counts (map fst h2) t + inject_Z (ones (map fst hp)))%Q).
  { intros t Ht. unfold n1, counts. rewrite Z2Nat.id by apply ones_nonneg. unfold h. rewrite firstn_app_2, map_app, ones_app, inject_Z_plus, firstn_map. ring. }
  assert (N10 : forall t, (t <= length h)%nat -> Z.of_nat (n1 h t) + Z.of_nat (n0 h t) = Z.of_nat t).
  { intros t Ht. unfold n1, n0. rewrite !Z2Nat.id by (apply ones_nonneg || apply zeros_nonneg).
    assert (Bf : bits (map fst (firstn t h))). { apply Forall_forall. intros z Hz. apply in_map_iff in Hz. destruct Hz as (p & <- & Hz). unfold pair_bits in Hb. rewrite Forall_forall in Hb. apply Hb. rewrite <- (firstn_skipn t h). apply in_or_app. left. exact Hz. }
    pose proof (ones_zeros _ Bf) as OZ. unfold zlen in OZ. rewrite map_length, firstn_length, Nat.min_l in OZ by exact Ht. lia. }
  (* after the register has been filled *)
  assert (CORE : forall a b, (2 ^ w <= a)%nat -> (a <= b <= length h2)%nat ->
    (Qabs (counts (skipn (length hp) O) b - counts (skipn (length hp) O) a - prod_prob m u0 u1 * (Qn b - Qn a)) <= (q0 + dl) * (Qn b - Qn a) + (K0 + layer_slack m w true))%Q).
  { intros a b Ha Hab. rewrite !Ecnt by lia.
    pose proof (is_steps m w rng h lo hi (length hp + a) Hl Hb (b - a) ltac:(lia)) as S. cbv zeta in S. fold O in S.
    replace (length hp + a + (b - a))%nat with (length hp + b)%nat in S by lia.
    assert (WIN : forall t, (length hp + a <= t < length hp + b)%nat -> lo <= ones (window w (map snd (firstn t h))) <= hi).
    { intros t Ht. replace t with (length hp + (t - length hp))%nat by lia. set (s := (t - length hp)%nat). unfold h. rewrite window_stretch by lia.
      apply Hin.
      - pose proof (ones_nonneg (stretch (s - 2 ^ w) s (map snd h2))). pose proof (countb_le_len (Z.eqb 1) (stretch (s - 2 ^ w) s (map snd h2))) as LE. unfold zlen in LE.
        rewrite stretch_length in LE by (rewrite map_length; lia). unfold ones in *. lia.
      - rewrite stretch_ones by lia. specialize (F1 (s - 2 ^ w)%nat s ltac:(lia)).
        assert (EN : (Qn s - Qn (s - 2 ^ w) == M)%Q) by (rewrite <- Qn_sub by lia; replace (s - (s - 2 ^ w))%nat with (2 ^ w)%nat by lia; unfold M; rewrite PN; reflexivity).
        rewrite EN in F1. rewrite (Qmult_comm M). exact F1. }
    specialize (S WIN). clear WIN.
    pose proof (N1 a ltac:(lia)) as A1. pose proof (N1 b ltac:(lia)) as B1. pose proof (N10 (length hp + a)%nat ltac:(lia)) as A2. pose proof (N10 (length hp + b)%nat ltac:(lia)) as B2.
    assert (M1 : (n1 h (length hp + a) <= n1 h (length hp + b))%nat /\ (n0 h (length hp + a) <= n0 h (length hp + b))%nat).
    { unfold n1, n0, h. rewrite !firstn_app_2, !map_app, !ones_app, !zeros_app.
      assert (Ef : map fst (firstn b h2) = map fst (firstn a h2) ++ stretch a b (map fst h2)) by (rewrite <- !firstn_map; apply stretch_app; lia).
      rewrite Ef, ones_app, zeros_app. pose proof (ones_nonneg (stretch a b (map fst h2))). pose proof (zeros_nonneg (stretch a b (map fst h2))). split; apply Z2Nat.inj_le; try lia;
        repeat match goal with |- context [ones ?l] => lazymatch goal with H : 0 <= ones l |- _ => fail | _ => pose proof (ones_nonneg l) end end;
        repeat match goal with |- context [zeros ?l] => lazymatch goal with H : 0 <= zeros l |- _ => fail | _ => pose proof (zeros_nonneg l) end end; lia. }
    set (e1 := n1 h (length hp + b)) in *. set (s1 := n1 h (length hp + a)) in *. set (e0 := n0 h (length hp + b)) in *. set (s0 := n0 h (length hp + a)) in *.
    clearbody e1 s1 e0 s0. destruct M1 as [M1 M0].
    assert (BW : forall B n k, 0 <= B <= p2 w -> (n <= k)%nat -> Z.abs ((below rng B k - below rng B n) * p2 w - (Z.of_nat k - Z.of_nat n) * B) <= 2 * Z.of_nat w * p2 w).
    { intros B n k HB Hnk. pose proof (below_window ext w d B n (k - n) true Hw HV HB ltac:(discriminate)) as D. fold rng in D. replace (n + (k - n))%nat with k in D by lia.
      rewrite Nat2Z.inj_sub in D by exact Hnk. exact D. }
    pose proof (BW hi s1 e1 Hhi M1) as W1h. pose proof (BW lo s1 e1 Hlo M1) as W1l. pose proof (BW hi s0 e0 Hhi M0) as W0h. pose proof (BW lo s0 e0 Hlo M0) as W0l. clear BW.
    set (F := ones (firstn (length hp + b) O) - ones (firstn (length hp + a) O)) in *.
    set (c1 := Z.of_nat e1 - Z.of_nat s1) in *. set (c0 := Z.of_nat e0 - Z.of_nat s0) in *.
    assert (T10 : c1 + c0 = Z.of_nat b - Z.of_nat a) by lia.
    assert (EF : (inject_Z (ones (firstn (length hp + b) O)) - inject_Z (ones (firstn (length hp) O)) - (inject_Z (ones (firstn (length hp + a) O)) - inject_Z (ones (firstn (length hp) O))) == inject_Z F)%Q).
    { unfold F, Z.sub. rewrite inject_Z_plus, inject_Z_opp. ring. }
    rewrite EF. clear EF.
    assert (ET : (Qn b - Qn a == inject_Z c1 + inject_Z c0)%Q).
    { rewrite <- inject_Z_plus, T10. unfold Qn, Z.sub. rewrite inject_Z_plus, inject_Z_opp. reflexivity. }
    assert (EC1 : (counts (map fst h2) b - counts (map fst h2) a == inject_Z c1)%Q).
    { unfold c1, Z.sub. rewrite inject_Z_plus, inject_Z_opp, A1, B1. ring. }
    specialize (F0 a b ltac:(lia)). rewrite EC1, ET in F0. rewrite ET. apply qabs_le in F0.
    assert (P1 : (0 <= inject_Z c1)%Q) by (change 0%Q with (inject_Z 0); rewrite <- Zle_Qle; lia).
    assert (P0 : (0 <= inject_Z c0)%Q) by (change 0%Q with (inject_Z 0); rewrite <- Zle_Qle; lia).
    assert (UP : (inject_Z F <= match m with Unipolar => inject_Z c1 * (inject_Z hi / M) | Bipolar => inject_Z c1 * (inject_Z hi / M) + inject_Z c0 - inject_Z c0 * (inject_Z lo / M) end + layer_slack m w true)%Q).
    { destruct m; cbn [tail0] in S.
      - set (f1 := below rng hi e1 - below rng hi s1) in *. assert (F * p2 w <= f1 * p2 w) by (apply Z.mul_le_mono_nonneg_r; lia). unfold layer_slack. apply (grid_le w F c1 hi). lia.
      - set (f1 := below rng hi e1 - below rng hi s1) in *. set (f0 := below rng lo e0 - below rng lo s0) in *.
        assert (G1 : (inject_Z f1 <= inject_Z c1 * (inject_Z hi / M) + inject_Z (2 * Z.of_nat w))%Q) by (apply grid_le; lia).
        assert (G0 : (inject_Z c0 * (inject_Z lo / M) <= inject_Z f0 + inject_Z (2 * Z.of_nat w))%Q) by (apply grid_ge; lia).
        assert (GF : (inject_Z F <= inject_Z f1 + inject_Z c0 - inject_Z f0)%Q).
        { unfold Qminus. rewrite <- inject_Z_opp, <- !inject_Z_plus, <- Zle_Qle. unfold c0. lia. }
        assert (GS : (layer_slack Bipolar w true == inject_Z (2 * Z.of_nat w) + inject_Z (2 * Z.of_nat w))%Q) by (unfold layer_slack; rewrite <- inject_Z_plus; apply inject_Z_injective; lia).
        rewrite GS. lra. }
    assert (DN : (match m with Unipolar => inject_Z c1 * (inject_Z lo / M) | Bipolar => inject_Z c1 * (inject_Z lo / M) + inject_Z c0 - inject_Z c0 * (inject_Z hi / M) end <= inject_Z F + layer_slack m w true)%Q).
    { destruct m; cbn [tail0] in S.
      - set (f1 := below rng lo e1 - below rng lo s1) in *. assert (f1 * p2 w <= F * p2 w) by (apply Z.mul_le_mono_nonneg_r; lia). unfold layer_slack. apply (grid_ge w F c1 lo). lia.
      - set (f1 := below rng lo e1 - below rng lo s1) in *. set (f0 := below rng hi e0 - below rng hi s0) in *.
        assert (G1 : (inject_Z c1 * (inject_Z lo / M) <= inject_Z f1 + inject_Z (2 * Z.of_nat w))%Q) by (apply grid_ge; lia).
        assert (G0 : (inject_Z f0 <= inject_Z c0 * (inject_Z hi / M) + inject_Z (2 * Z.of_nat w))%Q) by (apply grid_le; lia).
        assert (GF : (inject_Z f1 + inject_Z c0 - inject_Z f0 <= inject_Z F)%Q).
        { unfold Qminus. rewrite <- inject_Z_opp, <- !inject_Z_plus, <- Zle_Qle. unfold c0. lia. }
        assert (GS : (layer_slack Bipolar w true == inject_Z (2 * Z.of_nat w) + inject_Z (2 * Z.of_nat w))%Q) by (unfold layer_slack; rewrite <- inject_Z_plus; apply inject_Z_injective; lia).
        rewrite GS. lra. }
    set (sl := layer_slack m w true) in *. set (vh := (inject_Z hi / M)%Q) in *. set (vl := (inject_Z lo / M)%Q) in *.
    set (x1 := inject_Z c1) in *. set (x0 := inject_Z c0) in *. set (FF := inject_Z F) in *.
    clear - F0 P1 P0 UP DN Thi Tlo Hdl Hu1 Hu0 Hq0 HK0. clearbody sl vh vl x1 x0 FF dl.
    assert (I1 : (x1 * vh <= x1 * (u1 + dl))%Q) by (apply mul_l; assumption).
    assert (I2 : (x1 * (u1 - dl) <= x1 * vl)%Q) by (apply mul_l; assumption).
    assert (I3 : (x0 * vh <= x0 * (u1 + dl))%Q) by (apply mul_l; assumption).
    assert (I4 : (x0 * (u1 - dl) <= x0 * vl)%Q) by (apply mul_l; assumption).
    set (dv := (x1 - u0 * (x1 + x0))%Q) in *. set (Bd := (q0 * (x1 + x0) + K0)%Q) in *.
    assert (Z0 : (0 <= x0 * dl)%Q) by (apply Qmult_le_0_compat; assumption). pose proof F0 as F0'.
    destruct m; unfold prod_prob; apply qabs_le.
    - assert (E : (x1 * u1 - u0 * u1 * (x1 + x0) == dv * u1)%Q) by (unfold dv; ring).
      assert (J : (- Bd <= dv * u1 <= Bd)%Q) by (apply mul_within; [exact F0'|split; lra]). clearbody dv. unfold Bd in J. split; lra.
    - assert (E : (x1 * u1 + x0 * (1 - u1) - (u0 * u1 + (1 - u0) * (1 - u1)) * (x1 + x0) == dv * (2 * u1 - 1))%Q) by (unfold dv; ring).
      assert (J : (- Bd <= dv * (2 * u1 - 1) <= Bd)%Q) by (apply mul_within; [exact F0'|split; lra]). clearbody dv. unfold Bd in J. split; lra. }
  assert (BIT : bits (skipn (length hp) O)).
  { assert (BO : bits O).
    { apply Forall_forall. intros z Hz. apply (In_nth _ _ 0) in Hz. destruct Hz as (k & Hk & <-). unfold O. rewrite (is_out m w rng h k Hl Hb) by lia. cbv zeta.
      assert (BB : forall c : bool, bit (b2z c) /\ bit (1 - b2z c)) by (intros [|]; split; unfold bit; cbn [b2z]; lia).
      match goal with |- bit (if ?c then _ else _) => destruct c end; [apply BB|]. destruct m; [left; reflexivity|apply BB]. }
    unfold bits in *. rewrite <- (firstn_skipn (length hp) O) in BO. apply Forall_app in BO. exact (proj2 BO). }
  intros a b Hab. set (S := skipn (length hp) O) in *. assert (LS : length S = length h2) by (unfold S; rewrite skipn_length; lia). set (pr := prod_prob m u0 u1) in *.
  set (c := Nat.max a (Nat.min b (2 ^ w))).
  assert (G1 : (Qabs (counts S b - counts S c - pr * (Qn b - Qn c)) <= (q0 + dl) * (Qn b - Qn c) + (K0 + layer_slack m w true))%Q).
  { destruct (Nat.leb_spec b (2 ^ w)) as [L|L].
    - replace c with b by lia. apply qabs_le. split; lra.
    - apply CORE; lia. }
  assert (G2 : (0 <= counts S c - counts S a <= Qn c - Qn a)%Q).
  { rewrite <- stretch_ones by lia. rewrite <- Qn_sub by lia. pose proof (ones_nonneg (stretch a c S)). pose proof (countb_le_len (Z.eqb 1) (stretch a c S)) as LE.
    unfold zlen in LE. rewrite stretch_length in LE by lia. change 0%Q with (inject_Z 0). rewrite <- !Zle_Qle. unfold ones in *. lia. }
  assert (G3 : (0 <= Qn c - Qn a <= M)%Q).
  { rewrite <- Qn_sub by lia. change 0%Q with (inject_Z 0). unfold M. rewrite <- !Zle_Qle. lia. }
  assert (G4 : (0 <= Qn b - Qn c)%Q) by (rewrite <- Qn_sub by lia; change 0%Q with (inject_Z 0); rewrite <- Zle_Qle; lia).
  set (X1 := counts S b) in *. set (X2 := counts S c) in *. set (X3 := counts S a) in *. set (T1 := Qn b) in *. set (T2 := Qn c) in *. set (T3 := Qn a) in *.
  set (sl := layer_slack m w true) in *. unfold dl in G1. set (km := (K1 / M)%Q) in *. clear - G1 G2 G3 G4 PP Hq0 Hq1 K1M SL HK0 PQ.
  clearbody X1 X2 X3 T1 T2 T3 sl km M pr. apply qabs_le in G1. apply qabs_le.
  assert (Y1 : (0 <= pr * (T2 - T3) <= T2 - T3)%Q).
  { split; [apply Qmult_le_0_compat; lra|]. rewrite <- (Qmult_1_l (T2 - T3)) at 2. apply Qmult_le_compat_r; lra. }
  assert (Y2 : ((q0 + (q1 + km)) * (T1 - T2) <= (q0 + q1 + km) * (T1 - T3))%Q).
  { assert (E : (q0 + (q1 + km) == q0 + q1 + km)%Q) by ring. rewrite E. apply mul_l; lra. }
  split; lra.
Qed.

Lemma src_prob m v : src_ok m v -> (0 <= to_prob m v <= 1)%Q.
Proof. unfold src_ok, to_prob. intros H. destruct m; lra. Qed.
Lemma prod_of m v0 v1 : (prod_prob m (to_prob m v0) (to_prob m v1) == to_prob m (v0 * v1))%Q.
Proof.
  rewrite <- (to_of m (prod_prob m (to_prob m v0) (to_prob m v1))). apply to_prob_comp. rewrite prod_prob_value, !of_to. reflexivity.
Qed.
Lemma is_bits m w rng h : length rng = (2 ^ w)%nat -> pair_bits h -> bits (outs (fsumul_is_step m w rng) (fsumul_is_init w) h).
Proof.
  intros Hl Hb. apply Forall_forall. intros z Hz. apply (In_nth _ _ 0) in Hz. destruct Hz as (k & Hk & <-). rewrite outs_length in Hk. rewrite (is_out m w rng h k Hl Hb Hk). cbv zeta.
  assert (BB : forall c : bool, bit (b2z c) /\ bit (1 - b2z c)) by (intros [|]; split; unfold bit; cbn [b2z]; lia).
  match goal with |- bit (if ?c then _ else _) => destruct c end; [apply BB|]. destruct m; [left; reflexivity|apply BB].
Qed.

Theorem instream_steady : forall m ext w d h1 h2 v0 v1 q0 K0 q1 K1,
  (w <= 30)%nat -> dirvec_ok 30 (ext_dirvec ext d) -> pair_bits h1 -> pair_bits h2 -> src_ok m v0 -> src_ok m v1 ->
  (0 <= q0)%Q -> (0 <= q1)%Q -> (0 <= K0)%Q -> (0 <= K1)%Q ->
  steady m q0 K0 v0 (map fst h2) -> steady m q1 K1 v1 (map snd h2) ->
  steady m (q0 + q1 + span m * K1 / inject_Z (p2 w)) (K0 + layer_slack m w true + inject_Z (p2 w)) (v0 * v1)
    (skipn (length h1) (outs (fsumul_is_step m w (rng_seq ext KSobol w d)) (fsumul_is_init w) (h1 ++ h2))).
Proof.
  intros m ext w d h1 h2 v0 v1 q0 K0 q1 K1 Hw HV B1 B2 R0 R1 Hq0 Hq1 HK0 HK1 S0 S1. pose proof (span_pos m) as SP.
  assert (Hl : length (rng_seq ext KSobol w d) = (2 ^ w)%nat) by (rewrite (Permutation_length (rng_sobol_perm ext w d Hw HV)), len_zrange; reflexivity).
  assert (C0 : bits (map fst h2) /\ bits (map snd h2)).
  { unfold pair_bits in B2. rewrite Forall_forall in B2. split; apply Forall_forall; intros z Hz; apply in_map_iff in Hz; destruct Hz as (p & <- & Hp); apply B2; exact Hp. }
  apply steady_flow in S0; [|exact (proj1 C0)|exact HK0]. apply steady_flow in S1; [|exact (proj2 C0)|exact HK1]. rewrite map_length in S0, S1.
  assert (G : forall q, (0 <= q)%Q -> (0 <= q / span m)%Q) by (intros q Hq; apply Qle_shift_div_l; lra).
  pose proof (instream_flow m ext w d h1 h2 _ _ _ _ _ _ Hw HV B1 B2 (src_prob m v0 R0) (src_prob m v1 R1) (G _ Hq0) (G _ Hq1) S0 S1) as F.
  set (O := outs _ _ _) in *.
  assert (BO : bits (skipn (length h1) O)).
  { assert (BA : bits O) by (apply is_bits; [exact Hl|apply Forall_app; split; assumption]). unfold bits in *. rewrite <- (firstn_skipn (length h1) O) in BA. apply Forall_app in BA. exact (proj2 BA). }
  assert (LO : length (skipn (length h1) O) = length h2) by (rewrite skipn_length; unfold O; rewrite outs_length, app_length; lia). rewrite <- LO in F.
  apply (flow_steady m _ _ (v0 * v1)%Q) in F; [|exact BO|apply prod_of].
  pose proof (inj_pos _ (p2_pos w)) as PQ.
  eapply steady_ext; [| | |exact F]; [field; split; lra|reflexivity|reflexivity].
Qed.
