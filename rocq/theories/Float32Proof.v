(** Proofs about float32 rounding and the machines that use it. *)
Require Import Verif.BaseLemmas Verif.UtilsModel Verif.MetricModel Verif.AddModel Verif.Float32Model.
Require Import Verif.AddProof Verif.MetricProof Verif.UtilsProof.
Open Scope Z_scope.

(** ** Rounding *)
Lemma qpow2_le a b : a <= b -> (qpow2 a <= qpow2 b)%Q.
Proof.
  intros H. replace b with (a + (b - a)) by lia. rewrite qpow2_add, (qpow2_Z (b - a)) by lia. pose proof (qpow2_pos a).
  assert (1 <= inject_Z (2 ^ (b - a)))%Q. { change 1%Q with (inject_Z 1). apply inject_Z_le_iff. pose proof (Z.pow_pos_nonneg 2 (b - a)). lia. }
  nra.
Qed.

Lemma qpow2_lt_inv a b : (qpow2 a < qpow2 b)%Q -> a < b.
Proof. intros H. destruct (Z_lt_le_dec a b) as [|L]; [assumption|]. apply qpow2_le in L. lra. Qed.

Lemma qpow2_double e : (qpow2 (e + 1) == 2 * qpow2 e)%Q.
Proof. rewrite qpow2_add. change (qpow2 1) with 2%Q. ring. Qed.

Lemma qlog2_unique s e : (qpow2 e <= s)%Q -> (s < qpow2 (e + 1))%Q -> qlog2_floor s = e.
Proof.
  intros L U. pose proof (qpow2_pos e). destruct (qlog2_floor_spec s ltac:(lra)) as [L2 U2].
  assert (e < qlog2_floor s + 1) by (apply qpow2_lt_inv; lra). assert (qlog2_floor s < e + 1) by (apply qpow2_lt_inv; lra). lia.
Qed.

Lemma qlog2_comp a b : (0 < a)%Q -> (a == b)%Q -> qlog2_floor a = qlog2_floor b.
Proof.
  intros P E. symmetry. destruct (qlog2_floor_spec a P) as [L U]. apply qlog2_unique; lra.
Qed.

Definition f32_exp (q : Q) : Z := Z.max (qlog2_floor (Qabs q) - 23) (-149).

Lemma f32_zero q : (q == 0)%Q -> f32 q = 0%Q.
Proof. intros E. unfold f32. apply Qeq_bool_iff in E. rewrite E. reflexivity. Qed.

Lemma f32_nonzero q : ~ (q == 0)%Q -> f32 q = (inject_Z (qround (q / qpow2 (f32_exp q))) * qpow2 (f32_exp q))%Q.
Proof. intros E. unfold f32. destruct (Qeq_bool q 0) eqn:B; [apply Qeq_bool_iff in B; contradiction|reflexivity]. Qed.

Lemma Qabs_pos_nz q : ~ (q == 0)%Q -> (0 < Qabs q)%Q.
Proof. intros H. apply Qabs_case; intros; destruct (Qcompare_spec q 0) as [E|E|E]; try contradiction; lra. Qed.

Lemma f32_exp_bound q : ~ (q == 0)%Q -> (Qabs q < qpow2 (f32_exp q + 24))%Q.
Proof.
  intros H. destruct (qlog2_floor_spec _ (Qabs_pos_nz q H)) as [_ U]. eapply Qlt_le_trans; [exact U|]. apply qpow2_le. unfold f32_exp. lia.
Qed.

Lemma f32_exp_normal q : ~ (q == 0)%Q -> -149 < f32_exp q -> (qpow2 (f32_exp q + 23) <= Qabs q)%Q.
Proof.
  intros H L. destruct (qlog2_floor_spec _ (Qabs_pos_nz q H)) as [U _]. eapply Qle_trans; [|exact U]. apply qpow2_le. unfold f32_exp in *. lia.
Qed.

Lemma f32_comp a b : (a == b)%Q -> (f32 a == f32 b)%Q.
Proof.
  intros E. destruct (Qeq_dec a 0) as [Z|Z]; [rewrite !f32_zero by (try rewrite <- E; assumption); reflexivity|].
  assert (Zb : ~ (b == 0)%Q) by (rewrite <- E; exact Z).
  rewrite !f32_nonzero by assumption.
  assert (Ee : f32_exp a = f32_exp b).
  { unfold f32_exp. f_equal. f_equal. apply qlog2_comp; [apply Qabs_pos_nz, Z|]. rewrite E. reflexivity. }
  rewrite Ee. rewrite (qround_comp (a / qpow2 (f32_exp b)) (b / qpow2 (f32_exp b))); [reflexivity|]. rewrite E. reflexivity.
Qed.

Global Instance f32_proper : Proper (Qeq ==> Qeq) f32.
Proof. intros a b E. apply f32_comp, E. Qed.

Lemma scaled_round_error q e : (Qabs (q - inject_Z (qround (q / qpow2 e)) * qpow2 e) <= (1 # 2) * qpow2 e)%Q.
Proof.
  pose proof (qround_abs (q / qpow2 e)) as H. pose proof (qpow2_pos e) as P.
  assert (E : (q - inject_Z (qround (q / qpow2 e)) * qpow2 e == (q / qpow2 e - inject_Z (qround (q / qpow2 e))) * qpow2 e)%Q) by (field; lra).
  rewrite E, Qabs_Qmult, (Qabs_pos (qpow2 e)) by lra. apply Qmult_le_compat_r; [exact H|lra].
Qed.

Lemma qround_nearest x m : (Qabs (x - inject_Z (qround x)) <= Qabs (x - inject_Z m))%Q.
Proof.
  pose proof (qround_abs x) as H. destruct (Z.eq_dec (qround x) m) as [->|N]; [lra|].
  assert (1 <= Qabs (inject_Z (qround x) - inject_Z m))%Q.
  { assert (E : (inject_Z (qround x) - inject_Z m == inject_Z (qround x - m))%Q) by (unfold Z.sub; rewrite inject_Z_plus, inject_Z_opp; reflexivity).
    rewrite E. change (Qabs (inject_Z (qround x - m))) with (inject_Z (Z.abs (qround x - m))). change 1%Q with (inject_Z 1). apply inject_Z_le_iff. lia. }
  pose proof (Qabs_triangle (inject_Z (qround x) - x) (x - inject_Z m)) as T.
  assert (E1 : (inject_Z (qround x) - x + (x - inject_Z m) == inject_Z (qround x) - inject_Z m)%Q) by ring. rewrite E1 in T.
  assert (E2 : (Qabs (inject_Z (qround x) - x) == Qabs (x - inject_Z (qround x)))%Q) by (rewrite <- Qabs_opp; apply Qabs_wd; ring). rewrite E2 in T. lra.
Qed.

Lemma scaled_nearest q e m : (Qabs (q - inject_Z (qround (q / qpow2 e)) * qpow2 e) <= Qabs (q - inject_Z m * qpow2 e))%Q.
Proof.
  pose proof (qround_nearest (q / qpow2 e) m) as H. pose proof (qpow2_pos e) as P.
  assert (E : forall z, (q - inject_Z z * qpow2 e == (q / qpow2 e - inject_Z z) * qpow2 e)%Q) by (intros; field; lra).
  rewrite !E, !Qabs_Qmult, (Qabs_pos (qpow2 e)) by lra. apply Qmult_le_compat_r; [exact H|lra].
Qed.

Lemma inject_abs z : (Qabs (inject_Z z) == inject_Z (Z.abs z))%Q.
Proof. reflexivity. Qed.

Lemma round_bound q e : (Qabs q < qpow2 (e + 24))%Q -> Z.abs (qround (q / qpow2 e)) <= 2 ^ 24.
Proof.
  intros H. pose proof (qpow2_pos e) as P. rewrite qpow2_add in H. change (qpow2 24) with (inject_Z (2 ^ 24)) in H.
  apply Qabs_Qlt_condition in H. destruct H as [H1 H2].
  assert (B : - (2 ^ 24) <= qround (q / qpow2 e) <= 2 ^ 24); [|lia].
  apply qround_between.
  - apply Qle_shift_div_l; [exact P|]. rewrite inject_Z_opp. nra.
  - apply Qle_shift_div_r; [exact P|]. nra.
Qed.

(** f32 is the rounding to nearest of the format. *)
Theorem f32_single : forall q, single (f32 q).
Proof.
  intros q. destruct (Qeq_dec q 0) as [Z|Z].
  - rewrite f32_zero by exact Z. exists 0, 0. split; [lia|]. split; [lia|]. reflexivity.
  - rewrite f32_nonzero by exact Z. exists (qround (q / qpow2 (f32_exp q))), (f32_exp q).
    split; [apply round_bound, f32_exp_bound, Z|]. split; [unfold f32_exp; lia|]. reflexivity.
Qed.

Lemma multiple_split n k e : e <= k -> (inject_Z n * qpow2 k == inject_Z (n * 2 ^ (k - e)) * qpow2 e)%Q.
Proof. intros H. rewrite inject_Z_mult, <- qpow2_Z by lia. replace k with (k - e + e) at 1 by lia. rewrite qpow2_add. ring. Qed.

Theorem f32_nearest : forall q r, single r -> (Qabs (q - f32 q) <= Qabs (q - r))%Q.
Proof.
  intros q r (n & k & Hn & Hk & Er). change (Qpower 2 k) with (qpow2 k) in Er. rewrite Er. clear r Er.
  destruct (Qeq_dec q 0) as [Z|Z].
  { rewrite f32_zero by exact Z. rewrite Z. assert (E : (Qabs (0 - 0) == 0)%Q) by reflexivity. rewrite E. apply Qabs_nonneg. }
  rewrite f32_nonzero by exact Z. set (e := f32_exp q).
  destruct (Z_le_gt_dec e k) as [L|G].
  - rewrite (multiple_split n k e L). apply scaled_nearest.
  - assert (Le : -149 < e) by lia. pose proof (f32_exp_normal q Z Le) as N. fold e in N.
    assert (Br : (Qabs (inject_Z n * qpow2 k) <= qpow2 (e + 23))%Q).
    { rewrite Qabs_Qmult, (Qabs_pos (qpow2 k)) by (apply Qlt_le_weak, qpow2_pos). rewrite inject_abs.
      apply Qle_trans with (inject_Z (2 ^ 24) * qpow2 k)%Q; [apply Qmult_le_compat_r; [apply inject_Z_le_iff, Hn|apply Qlt_le_weak, qpow2_pos]|].
      rewrite <- qpow2_Z, <- qpow2_add by lia. apply qpow2_le. lia. }
    destruct (Qlt_le_dec q 0) as [Ng|Ps].
    + eapply Qle_trans; [apply (scaled_nearest q e (- 2 ^ 23))|]. fold e in N.
      assert (Ev : (inject_Z (- 2 ^ 23) * qpow2 e == - qpow2 (e + 23))%Q) by (rewrite qpow2_add; change (qpow2 23) with (inject_Z (2 ^ 23)); rewrite inject_Z_opp; ring).
      rewrite Ev. rewrite (Qabs_neg q) in N by lra. apply Qabs_Qle_condition in Br. destruct Br as [B1 B2].
      rewrite !Qabs_neg by lra. lra.
    + eapply Qle_trans; [apply (scaled_nearest q e (2 ^ 23))|].
      assert (Ev : (inject_Z (2 ^ 23) * qpow2 e == qpow2 (e + 23))%Q) by (rewrite qpow2_add; change (qpow2 23) with (inject_Z (2 ^ 23)); ring).
      rewrite Ev. rewrite (Qabs_pos q) in N by lra. apply Qabs_Qle_condition in Br. destruct Br as [B1 B2].
      rewrite !Qabs_pos by lra. lra.
Qed.

Theorem f32_fixed : forall q, single q -> (f32 q == q)%Q.
Proof.
  intros q S. pose proof (f32_nearest q q S) as H. assert (E : (q - q == 0)%Q) by ring. rewrite E in H. change (Qabs 0) with 0%Q in H.
  pose proof (Qabs_nonneg (q - f32 q)). assert (E2 : (Qabs (q - f32 q) == 0)%Q) by lra.
  assert (q - f32 q == 0)%Q. { revert E2. apply Qabs_case; intros; lra. } lra.
Qed.

Theorem f32_relative : forall q, (qpow2 (-126) <= Qabs q)%Q -> (Qabs (f32 q - q) <= Qabs q * qpow2 (-24))%Q.
Proof.
  intros q H. pose proof (qpow2_pos (-126)) as P. assert (Z : ~ (q == 0)%Q) by (intros E; rewrite E in H; change (Qabs 0) with 0%Q in H; lra).
  rewrite f32_nonzero by exact Z. set (e := f32_exp q).
  assert (Ee : (qpow2 (e + 23) <= Qabs q)%Q).
  { destruct (qlog2_floor_spec _ (Qabs_pos_nz q Z)) as [L U]. assert (-126 < qlog2_floor (Qabs q) + 1) by (apply qpow2_lt_inv; lra).
    eapply Qle_trans; [|exact L]. apply qpow2_le. unfold e, f32_exp. lia. }
  pose proof (scaled_round_error q e) as R.
  assert (E1 : (Qabs (inject_Z (qround (q / qpow2 e)) * qpow2 e - q) == Qabs (q - inject_Z (qround (q / qpow2 e)) * qpow2 e))%Q)
    by (rewrite <- Qabs_opp; apply Qabs_wd; ring).
  rewrite E1. eapply Qle_trans; [exact R|].
  assert (E2 : ((1 # 2) * qpow2 e == qpow2 (e + 23) * qpow2 (-24))%Q).
  { rewrite <- qpow2_add. replace (e + 23 + -24) with (e + -1) by lia. rewrite qpow2_add. change (qpow2 (-1)) with (1 # 2)%Q. ring. }
  rewrite E2. apply Qmult_le_compat_r; [exact Ee|]. apply Qlt_le_weak, qpow2_pos.
Qed.

Lemma nearer_hi x lo hi : (lo < hi)%Q -> (Qabs (x - hi) <= Qabs (x - lo))%Q -> (lo + hi <= 2 * x)%Q.
Proof. intros H. apply (Qabs_case (x - hi)); apply (Qabs_case (x - lo)); intros; lra. Qed.
Lemma nearer_lo x lo hi : (lo < hi)%Q -> (Qabs (x - lo) <= Qabs (x - hi))%Q -> (2 * x <= lo + hi)%Q.
Proof. intros H. apply (Qabs_case (x - hi)); apply (Qabs_case (x - lo)); intros; lra. Qed.

Theorem f32_monotone : forall a b, (a <= b)%Q -> (f32 a <= f32 b)%Q.
Proof.
  intros a b H. destruct (Qlt_le_dec (f32 b) (f32 a)) as [C|]; [|assumption].
  pose proof (nearer_hi a _ _ C (f32_nearest a (f32 b) (f32_single b))).
  pose proof (nearer_lo b _ _ C (f32_nearest b (f32 a) (f32_single a))).
  assert (E : (a == b)%Q) by lra. rewrite E in C. lra.
Qed.

Lemma f32_dyadic g q : g <= 149 -> dyadic g q -> (Qabs q <= qpow2 (24 - g))%Q -> (f32 q == q)%Q.
Proof.
  intros Hg [n E] B. change (Qpower 2 (- g)) with (qpow2 (- g)) in E. apply f32_fixed. exists n, (- g). split; [|split; [lia|exact E]].
  rewrite E in B. rewrite Qabs_Qmult, (Qabs_pos (qpow2 (- g))), inject_abs in B by (apply Qlt_le_weak, qpow2_pos).
  replace (24 - g) with (24 + - g) in B by lia. rewrite qpow2_add in B. change (qpow2 24) with (inject_Z (2 ^ 24)) in B.
  apply Qmult_le_r in B; [|apply qpow2_pos]. apply inject_Z_le_iff, B.
Qed.

Lemma f32_int n : Z.abs n <= 2 ^ 24 -> (f32 (inject_Z n) == inject_Z n)%Q.
Proof. intros H. apply f32_fixed. exists n, 0. split; [exact H|]. split; [lia|]. change (Qpower 2 0) with 1%Q. ring. Qed.

Lemma f32_int_comp q n : (q == inject_Z n)%Q -> Z.abs n <= 2 ^ 24 -> (f32 q == inject_Z n)%Q.
Proof. intros E H. rewrite E. apply f32_int, H. Qed.

Lemma f32_stuck : (f32 (inject_Z (2 ^ 24) + 1) == inject_Z (2 ^ 24))%Q.
Proof. vm_compute. reflexivity. Qed.

(** ** Counters *)
Definition top : Z := 2 ^ 24.

Lemma count32 q n x : 0 <= n -> (q == inject_Z (Z.min n top))%Q -> bit x -> (f32 (q + inject_Z x) == inject_Z (Z.min (n + x) top))%Q.
Proof.
  intros Hn E [-> | ->]; rewrite E.
  - rewrite Z.add_0_r. change (inject_Z 0) with 0%Q. rewrite Qplus_0_r. apply f32_int. unfold top. lia.
  - change (inject_Z 1) with 1%Q. destruct (Z_lt_le_dec n top) as [L|G].
    + apply f32_int_comp; [|unfold top in *; lia]. rewrite !Z.min_l by lia. rewrite inject_Z_plus. reflexivity.
    + rewrite !Z.min_r by lia. apply f32_stuck.
Qed.

Theorem pe32_counters : forall xs, bits xs ->
  (pe32_cycle (pe32_monitors pe32_init xs) == inject_Z (Z.min (zlen xs) (2 ^ 24)))%Q /\
  (pe32_one (pe32_monitors pe32_init xs) == inject_Z (Z.min (ones xs) (2 ^ 24)))%Q.
Proof.
  intros xs. fold top. unfold pe32_monitors. induction xs as [|x xs IH] using rev_ind; intros Hb; [split; reflexivity|].
  apply bits_snoc in Hb. destruct Hb as [Hb Hx]. destruct (IH Hb) as [I1 I2].
  rewrite fold_left_app. cbn [fold_left]. set (s := fold_left _ xs pe32_init) in *. clearbody s. unfold pe32_monitor. cbn [pe32_cycle pe32_one].
  rewrite zlen_snoc, ones_snoc by exact Hx. split.
  - change 1%Q with (inject_Z 1). apply count32; [unfold zlen; lia|exact I1|right; reflexivity].
  - apply count32; [apply ones_nonneg; exact Hb|exact I2|exact Hx].
Qed.

Lemma f32_small q : (Qabs q < 2)%Q -> (Qabs (f32 q - q) <= qpow2 (-24))%Q.
Proof.
  intros H. destruct (Qeq_dec q 0) as [Z|Z].
  - rewrite f32_zero by exact Z. rewrite Z. change (Qabs (0 - 0)) with 0%Q. apply Qlt_le_weak, qpow2_pos.
  - rewrite f32_nonzero by exact Z. set (e := f32_exp q).
    assert (Le : e <= -23).
    { unfold e, f32_exp. destruct (qlog2_floor_spec _ (Qabs_pos_nz q Z)) as [L _]. change 2%Q with (qpow2 1) in H.
      assert (qlog2_floor (Qabs q) < 1) by (apply qpow2_lt_inv; lra). lia. }
    assert (E1 : (Qabs (inject_Z (qround (q / qpow2 e)) * qpow2 e - q) == Qabs (q - inject_Z (qround (q / qpow2 e)) * qpow2 e))%Q)
      by (rewrite <- Qabs_opp; apply Qabs_wd; ring).
    rewrite E1. eapply Qle_trans; [apply scaled_round_error|].
    apply Qle_trans with ((1 # 2) * qpow2 (-23))%Q; [|vm_compute; discriminate]. pose proof (qpow2_le _ _ Le). lra.
Qed.

Lemma ones_le_len xs : bits xs -> ones xs <= zlen xs.
Proof. intros H. pose proof (ones_zeros xs H). pose proof (zeros_nonneg xs). lia. Qed.

Lemma pe32_forward_eq m src xs : bits xs -> xs <> [] ->
  exists pp0, (pp0 == f32 (inject_Z (Z.min (ones xs) top) / inject_Z (Z.min (zlen xs) top)))%Q /\
  let pp := match m with Bipolar => f32 (f32 (pp0 * 2) - 1) | Unipolar => pp0 end in
  pe32_forward m src (pe32_monitors pe32_init xs) = Some (pp, f32 (pp - src)).
Proof.
  intros Hb Hn. destruct (pe32_counters xs Hb) as [C O]. fold top in C, O. unfold pe32_forward.
  assert (Hl : 0 < zlen xs) by (destruct xs; [contradiction|unfold zlen; cbn [length]; lia]).
  set (s := pe32_monitors pe32_init xs) in *. clearbody s.
  assert (Ht : 0 < Z.min (zlen xs) top) by (apply Z.min_glb_lt; [exact Hl|reflexivity]). pose proof (inject_Z_pos _ Ht) as P.
  destruct (Qeq_bool (pe32_cycle s) 0) eqn:B.
  - apply Qeq_bool_iff in B. exfalso. lra.
  - exists (f32 (pe32_one s / pe32_cycle s)). split; [|reflexivity]. rewrite O, C. reflexivity.
Qed.

Lemma unipolar_value xs : (value Unipolar xs == inject_Z (ones xs) / inject_Z (zlen xs))%Q. Proof. reflexivity. Qed.
Lemma bipolar_value xs : bits xs -> xs <> [] -> (value Bipolar xs == 2 * (inject_Z (ones xs) / inject_Z (zlen xs)) - 1)%Q.
Proof.
  intros Hb Hn. assert (Hl : 0 < zlen xs) by (destruct xs; [contradiction|unfold zlen; cbn [length]; lia]).
  unfold value. pose proof (ones_zeros xs Hb) as OZ. unfold walk. replace (ones xs - zeros xs) with (2 * ones xs - zlen xs) by lia.
  unfold Z.sub. rewrite inject_Z_plus, inject_Z_opp, inject_Z_mult. pose proof (inject_Z_pos _ Hl). field. lra.
Qed.

Lemma frac_unit a b : 0 <= a <= b -> 0 < b -> (0 <= inject_Z a / inject_Z b /\ inject_Z a / inject_Z b <= 1)%Q.
Proof.
  intros H Hb. pose proof (inject_Z_pos _ Hb) as P. split.
  - apply Qle_shift_div_l; [exact P|]. rewrite Qmult_0_l. change 0%Q with (inject_Z 0). apply inject_Z_le_iff. lia.
  - apply Qle_shift_div_r; [exact P|]. rewrite Qmult_1_l. apply inject_Z_le_iff. lia.
Qed.

(** Up to 2^24 cycles the reported value is the value of the stream up to rounding errors of 2^-24 ... *)
Theorem pe32_short : forall m src xs, bits xs -> xs <> [] -> zlen xs <= 2 ^ 24 ->
  exists pp pe, pe32_forward m src (pe32_monitors pe32_init xs) = Some (pp, pe) /\
    (Qabs (pp - value m xs) <= (match m with Unipolar => 1 | Bipolar => 3 end) * qpow2 (-24))%Q /\
    (pe == f32 (pp - src))%Q.
Proof.
  intros m src xs Hb Hn Hl. destruct (pe32_forward_eq m src xs Hb Hn) as (pp0 & E0 & E).
  eexists. eexists. split; [exact E|]. split; [|reflexivity]. clear E.
  pose proof (ones_le_len xs Hb) as OL. pose proof (ones_nonneg xs) as ON.
  assert (Hl0 : 0 < zlen xs) by (destruct xs; [contradiction|unfold zlen; cbn [length]; lia]).
  rewrite !Z.min_l in E0 by (unfold top; lia). set (v := (inject_Z (ones xs) / inject_Z (zlen xs))%Q) in *.
  assert (Hv : (0 <= v /\ v <= 1)%Q) by (apply frac_unit; lia).
  assert (Q0 : (Qabs (pp0 - v) <= qpow2 (-24))%Q) by (rewrite E0; apply f32_small; rewrite Qabs_pos; lra).
  destruct m.
  - rewrite unipolar_value. fold v. rewrite Qmult_1_l. exact Q0.
  - rewrite (bipolar_value xs Hb Hn). fold v.
    assert (P01 : (0 <= pp0 /\ pp0 <= 1)%Q).
    { rewrite E0. split.
      - assert (X : (f32 0 <= f32 v)%Q) by (apply f32_monotone; lra). rewrite f32_zero in X by reflexivity. exact X.
      - assert (X : (f32 v <= f32 1)%Q) by (apply f32_monotone; lra). assert (E1 : (f32 1 == 1)%Q) by (vm_compute; reflexivity). lra. }
    assert (S2 : single (pp0 * 2)).
    { destruct (f32_single v) as (n & k & Sn & Sk & Se). exists n, (k + 1). split; [exact Sn|]. split; [lia|]. rewrite E0, Se.
      change (Qpower 2 (k + 1)) with (qpow2 (k + 1)). rewrite qpow2_double. unfold qpow2. ring. }
    assert (E2 : (f32 (pp0 * 2) == pp0 * 2)%Q) by (apply f32_fixed, S2).
    assert (Q1 : (Qabs (f32 (f32 (pp0 * 2) - 1) - (pp0 * 2 - 1)) <= qpow2 (-24))%Q).
    { rewrite E2. apply f32_small. apply Qabs_case; intros; lra. }
    apply Qabs_Qle_condition in Q0. apply Qabs_Qle_condition in Q1. apply Qabs_Qle_condition. lra.
Qed.

Lemma quotient_single n k : 0 <= k <= 149 -> Z.abs n <= 2 ^ 24 -> single (inject_Z n / inject_Z (2 ^ k)).
Proof.
  intros Hk Hn. exists n, (- k). split; [exact Hn|]. split; [lia|]. change (Qpower 2 (- k)) with (qpow2 (- k)).
  assert (E : (qpow2 (- k) * inject_Z (2 ^ k) == 1)%Q) by (rewrite <- qpow2_Z, <- qpow2_add by lia; replace (- k + k) with 0 by lia; reflexivity).
  assert (P : (0 < inject_Z (2 ^ k))%Q) by (apply inject_Z_pos, Z.pow_pos_nonneg; lia).
  setoid_replace (qpow2 (- k)) with (1 / inject_Z (2 ^ k))%Q; [field; lra|].
  apply (Qmult_inj_r _ _ (inject_Z (2 ^ k))); [lra|]. rewrite E. field. lra.
Qed.

Lemma pe32_pow2 n k : 0 <= k <= 24 -> 0 <= n <= 2 ^ k ->
  let v := (inject_Z n / inject_Z (2 ^ k))%Q in
  (f32 v == v)%Q /\ forall pp0, (pp0 == v)%Q -> (f32 (f32 (pp0 * 2) - 1) == 2 * v - 1)%Q.
Proof.
  intros Hk Hn v. assert (P : (0 < inject_Z (2 ^ k))%Q) by (apply inject_Z_pos, Z.pow_pos_nonneg; lia).
  assert (Hp : 2 ^ k <= 2 ^ 24) by (apply Z.pow_le_mono_r; lia).
  assert (Sv : single v) by (apply quotient_single; lia). split; [apply f32_fixed, Sv|].
  intros pp0 E. assert (S2 : single (v * 2)).
  { destruct Sv as (m & j & Sn & Sk & Se). exists m, (j + 1). split; [exact Sn|]. split; [lia|]. rewrite Se.
    change (Qpower 2 (j + 1)) with (qpow2 (j + 1)). rewrite qpow2_double. unfold qpow2. ring. }
  rewrite E, (f32_fixed _ S2).
  assert (E3 : (v * 2 - 1 == inject_Z (2 * n - 2 ^ k) / inject_Z (2 ^ k))%Q).
  { unfold v, Z.sub. rewrite inject_Z_plus, inject_Z_opp, inject_Z_mult. change (inject_Z 2) with 2%Q. field. lra. }
  rewrite E3. rewrite f32_fixed by (apply quotient_single; lia). rewrite <- E3. ring.
Qed.

(** ... and exact when the length is a power of two. *)
Theorem pe32_period : forall m src xs k, bits xs -> 0 <= k <= 24 -> zlen xs = 2 ^ k ->
  exists pp pe, pe32_forward m src (pe32_monitors pe32_init xs) = Some (pp, pe) /\ (pp == value m xs)%Q /\ (pe == f32 (value m xs - src))%Q.
Proof.
  intros m src xs k Hb Hk Hl. pose proof (Z.pow_pos_nonneg 2 k ltac:(lia) ltac:(lia)) as Pk.
  assert (Hn : xs <> []) by (intros ->; unfold zlen in Hl; cbn in Hl; lia).
  destruct (pe32_forward_eq m src xs Hb Hn) as (pp0 & E0 & E).
  assert (Hp : 2 ^ k <= 2 ^ 24) by (apply Z.pow_le_mono_r; lia).
  pose proof (ones_le_len xs Hb) as OL. pose proof (ones_nonneg xs) as ON.
  rewrite !Z.min_l in E0 by (unfold top; lia). rewrite Hl in E0.
  destruct (pe32_pow2 (ones xs) k Hk ltac:(lia)) as [F1 F2].
  assert (Ev : (match m with Bipolar => f32 (f32 (pp0 * 2) - 1) | Unipolar => pp0 end == value m xs)%Q).
  { destruct m; [rewrite unipolar_value, Hl, E0; exact F1|]. rewrite (bipolar_value xs Hb Hn), Hl. apply F2. rewrite E0. exact F1. }
  eexists. eexists. split; [exact E|]. split; [exact Ev|]. rewrite Ev. reflexivity.
Qed.

(** Beyond 2^24 cycles the divisor stays at 2^24 and the reported value is too large unless the stream is constant. *)
Theorem pe32_long : forall m src xs, bits xs -> 2 ^ 24 < zlen xs ->
  exists pp pe, pe32_forward m src (pe32_monitors pe32_init xs) = Some (pp, pe) /\
    (pp == let v := inject_Z (Z.min (ones xs) (2 ^ 24)) / inject_Z (2 ^ 24) in match m with Unipolar => v | Bipolar => 2 * v - 1 end)%Q /\
    (0 < ones xs < zlen xs -> (value m xs < pp)%Q).
Proof.
  intros m src xs Hb Hl. assert (Hn : xs <> []) by (intros ->; cbn in Hl; lia).
  destruct (pe32_forward_eq m src xs Hb Hn) as (pp0 & E0 & E).
  pose proof (ones_le_len xs Hb) as OL. pose proof (ones_nonneg xs) as ON.
  rewrite (Z.min_r (zlen xs)) in E0 by (unfold top; lia). fold top. set (o := Z.min (ones xs) top) in *. unfold top in E0 at 1.
  destruct (pe32_pow2 o 24 ltac:(lia) ltac:(unfold o, top; lia)) as [F1 F2]. change (2 ^ 24) with top in F1, F2, E0.
  assert (Ev : (match m with Bipolar => f32 (f32 (pp0 * 2) - 1) | Unipolar => pp0 end ==
     let v := inject_Z o / inject_Z top in match m with Unipolar => v | Bipolar => 2 * v - 1 end)%Q).
  { cbn zeta. destruct m; [rewrite E0; exact F1|]. apply F2. rewrite E0. exact F1. }
  eexists. eexists. split; [exact E|]. split; [exact Ev|]. intros Ho. rewrite Ev.
  assert (L : (inject_Z (ones xs) / inject_Z (zlen xs) < inject_Z o / inject_Z top)%Q).
  { assert (Pl : (0 < inject_Z (zlen xs))%Q) by (apply inject_Z_pos; lia).
    apply Qlt_shift_div_r; [exact Pl|]. assert (Pt : (0 < inject_Z top)%Q) by (apply inject_Z_pos; reflexivity).
    setoid_replace (inject_Z o / inject_Z top * inject_Z (zlen xs))%Q with (inject_Z o * inject_Z (zlen xs) / inject_Z top)%Q by (field; lra).
    apply Qlt_shift_div_l; [exact Pt|]. rewrite <- !inject_Z_mult. apply inject_Z_lt_iff. change (2 ^ 24) with top in Hl.
    unfold o. assert (Ht : 0 < top) by reflexivity. revert Ht Hl. generalize top. intros T Ht Hl. destruct (Z.min_spec (ones xs) T) as [[? ->]|[? ->]]; nia. }
  cbn zeta. destruct m; [exact L|]. rewrite (bipolar_value xs Hb Hn). lra.
Qed.

(** ** Stability *)
Definition pe32_off (m : mode) (src threshold : Q) (ys : list Z) : bool :=
  match pe32_forward m src (pe32_monitors pe32_init ys) with Some (_, pe) => qgt (Qabs pe) threshold | None => false end.

Theorem stab32_state : forall m src thr xs, bits xs ->
  let s := stab32_monitors m src thr stab32_init xs in
  sb32_pe s = pe32_monitors pe32_init xs /\
  (sb32_cts s == inject_Z (Z.min (last_index (pe32_off m src thr) 1 (map (fun k => firstn (S k) xs) (seq 0 (length xs)))) (2 ^ 24)))%Q.
Proof.
  intros m src thr xs. cbn zeta. fold top. unfold stab32_monitors. induction xs as [|x xs IH] using rev_ind; intros Hb; [split; reflexivity|].
  pose proof Hb as Hb0. apply bits_snoc in Hb. destruct Hb as [Hb Hx]. specialize (IH Hb).
  rewrite fold_left_app. cbn [fold_left]. set (s := fold_left _ xs stab32_init) in *. clearbody s. destruct IH as [I1 I2].
  unfold stab32_monitor. rewrite I1.
  assert (Ep : pe32_monitor (pe32_monitors pe32_init xs) x = pe32_monitors pe32_init (xs ++ [x])) by (unfold pe32_monitors; rewrite fold_left_app; reflexivity).
  rewrite Ep. destruct (pe32_forward_eq m src (xs ++ [x]) Hb0) as (pp0 & _ & E); [destruct xs; discriminate|]. cbn zeta in E.
  rewrite E. cbn [sb32_pe sb32_cts]. split; [reflexivity|].
  rewrite app_length. cbn [length]. rewrite seq_app, map_app. cbn [map seq Nat.add].
  rewrite last_index_snoc by lia.
  assert (Em : map (fun k => firstn (S k) (xs ++ [x])) (seq 0 (length xs)) = map (fun k => firstn (S k) xs) (seq 0 (length xs))).
  { apply map_ext_in. intros k Hk. apply in_seq in Hk. rewrite firstn_app. replace (S k - length xs)%nat with 0%nat by lia.
    cbn [firstn]. apply app_nil_r. }
  rewrite Em. rewrite (firstn_all2 (xs ++ [x])) by (rewrite app_length; cbn; lia).
  assert (Lm : zlen (map (fun k => firstn (S k) xs) (seq 0 (length xs))) = zlen xs) by (unfold zlen; rewrite map_length, seq_length; reflexivity).
  pose proof (last_index_range (pe32_off m src thr) (map (fun k => firstn (S k) xs) (seq 0 (length xs))) 1 ltac:(lia)) as Rg. rewrite Lm in Rg |- *.
  set (li := last_index _ 1 _) in *. clearbody li.
  destruct (pe32_counters _ Hb0) as [C _]. fold top in C. rewrite zlen_snoc in C.
  unfold pe32_off. rewrite E. pose proof (Zle_0_nat (length xs)) as L0. fold (zlen xs) in L0.
  destruct (qgt _ thr); cbn [b2z].
  - change (inject_Z 1) with 1%Q.
    assert (E1 : (f32 (pe32_cycle (pe32_monitors pe32_init (xs ++ [x])) - sb32_cts s) == inject_Z (Z.min (zlen xs + 1) top - Z.min li top))%Q).
    { apply f32_int_comp; [|unfold top; lia]. rewrite C, I2. unfold Z.sub. rewrite inject_Z_plus, inject_Z_opp. reflexivity. }
    assert (E2 : (f32 (1 * f32 (pe32_cycle (pe32_monitors pe32_init (xs ++ [x])) - sb32_cts s)) == inject_Z (Z.min (zlen xs + 1) top - Z.min li top))%Q).
    { apply f32_int_comp; [rewrite E1; ring|unfold top; lia]. }
    apply f32_int_comp; [|unfold top; lia]. rewrite E2, I2. rewrite <- inject_Z_plus. apply inject_Z_eq. lia.
  - change (inject_Z 0) with 0%Q.
    assert (E2 : (f32 (0 * f32 (pe32_cycle (pe32_monitors pe32_init (xs ++ [x])) - sb32_cts s)) == 0)%Q) by (rewrite f32_zero by ring; reflexivity).
    apply f32_int_comp; [rewrite E2, I2; ring|unfold top; lia].
Qed.

Theorem stab32_value : forall m src thr xs, bits xs -> xs <> [] ->
  let cts := last_index (pe32_off m src thr) 1 (map (fun k => firstn (S k) xs) (seq 0 (length xs))) in
  let v := stab32_forward (stab32_monitors m src thr stab32_init xs) in
  (v == f32 (1 - f32 (inject_Z (Z.max 1 (Z.min cts (2 ^ 24))) / inject_Z (Z.min (zlen xs) (2 ^ 24)))))%Q /\ (0 <= v < 1)%Q.
Proof.
  intros m src thr xs Hb Hn. cbn zeta.
  destruct (stab32_state m src thr xs Hb) as [E1 E2]. cbn zeta in *. set (s := stab32_monitors _ _ _ _ _) in *.
  pose proof (last_index_range (pe32_off m src thr) (map (fun k => firstn (S k) xs) (seq 0 (length xs))) 1 ltac:(lia)) as Rg.
  assert (Lm : zlen (map (fun k => firstn (S k) xs) (seq 0 (length xs))) = zlen xs) by (unfold zlen; rewrite map_length, seq_length; reflexivity).
  rewrite Lm in Rg. set (li := last_index _ 1 _) in *. clearbody li.
  destruct (pe32_counters xs Hb) as [Ec _]. rewrite <- E1 in Ec.
  assert (Hl : 1 <= zlen xs) by (unfold zlen; destruct xs; [contradiction|cbn [length]; lia]).
  set (n := zlen xs) in *. clearbody n s. clear Hb Hn E1 Lm. unfold stab32_forward.
  set (N := Z.min n (2 ^ 24)) in *. set (c := Z.min li (2 ^ 24)) in *.
  assert (HN : 1 <= N <= 2 ^ 24) by (unfold N; lia). assert (Hc : 0 <= c <= N) by (unfold c, N; lia). clearbody N c. clear Rg Hl n.
  assert (Ek : (qclamp 1 (pe32_cycle (sb32_pe s)) (sb32_cts s) == inject_Z (Z.max 1 c))%Q).
  { assert (N1 : (1 <= inject_Z N)%Q) by (apply (inject_Z_le_iff 1 N); lia). assert (C1 : (inject_Z c <= inject_Z N)%Q) by (apply inject_Z_le_iff; lia).
    destruct (Z.max_spec 1 c) as [[L ->]|[L ->]].
    - assert (C2 : (1 <= inject_Z c)%Q) by (apply (inject_Z_le_iff 1 c); lia). unfold qclamp, qmin, qmax. qcases; lra.
    - assert (C2 : (inject_Z c <= 1)%Q) by (apply (inject_Z_le_iff c 1); lia). change (inject_Z 1) with 1%Q. unfold qclamp, qmin, qmax. qcases; lra. }
  assert (Ev : (f32 (1 - f32 (qclamp 1 (pe32_cycle (sb32_pe s)) (sb32_cts s) / pe32_cycle (sb32_pe s))) ==
    f32 (1 - f32 (inject_Z (Z.max 1 c) / inject_Z N)))%Q).
  { apply f32_comp. rewrite (f32_comp _ (inject_Z (Z.max 1 c) / inject_Z N)); [reflexivity|]. rewrite Ek, Ec. reflexivity. }
  split; [exact Ev|].
  assert (PN : (0 < inject_Z N)%Q) by (apply inject_Z_pos; lia).
  assert (Q1 : (inject_Z (Z.max 1 c) / inject_Z N <= 1)%Q).
  { apply Qle_shift_div_r; [exact PN|]. rewrite Qmult_1_l. apply inject_Z_le_iff. lia. }
  assert (Q0 : (1 / inject_Z (2 ^ 24) <= inject_Z (Z.max 1 c) / inject_Z N)%Q).
  { apply Qle_shift_div_l; [exact PN|]. setoid_replace (1 / inject_Z (2 ^ 24) * inject_Z N)%Q with (inject_Z N / inject_Z (2 ^ 24))%Q by (field; discriminate).
    apply Qle_shift_div_r; [reflexivity|]. rewrite <- inject_Z_mult. apply inject_Z_le_iff. nia. }
  assert (F1 : (f32 1 == 1)%Q) by (change 1%Q with (inject_Z 1); apply f32_int; lia).
  assert (F0 : (f32 (1 / inject_Z (2 ^ 24)) == 1 / inject_Z (2 ^ 24))%Q).
  { apply f32_fixed. change 1%Q with (inject_Z 1). apply (quotient_single 1 24); lia. }
  assert (F2 : (f32 (inject_Z (2 ^ 24 - 1) / inject_Z (2 ^ 24)) == inject_Z (2 ^ 24 - 1) / inject_Z (2 ^ 24))%Q).
  { apply f32_fixed. apply (quotient_single (2 ^ 24 - 1) 24); lia. }
  apply f32_monotone in Q1. apply f32_monotone in Q0. rewrite F1 in Q1. rewrite F0 in Q0. set (y := f32 (inject_Z (Z.max 1 c) / inject_Z N)) in *. clearbody y.
  assert (U : (1 - y <= inject_Z (2 ^ 24 - 1) / inject_Z (2 ^ 24))%Q).
  { assert (Q2 : (1 # 16777216 <= y)%Q) by (eapply Qle_trans; [|exact Q0]; discriminate).
    apply Qle_trans with (16777215 # 16777216)%Q; [lra|discriminate]. }
  assert (L : (0 <= 1 - y)%Q) by lra. apply f32_monotone in U. apply f32_monotone in L. rewrite F2 in U. rewrite (f32_zero 0) in L by reflexivity.
  rewrite Ev. split; [exact L|]. eapply Qle_lt_trans; [exact U|reflexivity].
Qed.

(** ** Correlation *)
Lemma pairs_nonneg u v h : 0 <= pairs u v h.
Proof. apply countb_nonneg. Qed.

Theorem corr32_counters : forall h, Forall bitpair h ->
  let s := corr32_monitors corr32_init h in
  (c32_a s == inject_Z (Z.min (pairs 1 1 h) (2 ^ 24)) /\ c32_b s == inject_Z (Z.min (pairs 1 0 h) (2 ^ 24)) /\
   c32_c s == inject_Z (Z.min (pairs 0 1 h) (2 ^ 24)) /\ c32_d s == inject_Z (Z.min (pairs 0 0 h) (2 ^ 24)) /\
   c32_len s == inject_Z (Z.min (zlen h) (2 ^ 24)))%Q.
Proof.
  intros h. cbn zeta. fold top. unfold corr32_monitors. induction h as [|[u v] h IH] using rev_ind; intros Hb; [repeat split; reflexivity|].
  apply Forall_app in Hb. destruct Hb as [Hb Hp]. pose proof (Forall_inv Hp) as [H1 H2]. cbn [fst snd] in H1, H2. specialize (IH Hb).
  rewrite fold_left_app. cbn [fold_left]. set (s := fold_left _ h corr32_init) in *. clearbody s. destruct IH as (Ia & Ib & Ic & Id & Il).
  unfold corr32_monitor. cbn [c32_a c32_b c32_c c32_d c32_len].
  assert (Ep : forall a b, pairs a b (h ++ [(u, v)]) = pairs a b h + b2z ((u =? a) && (v =? b))).
  { intros a b. unfold pairs. rewrite countb_app. cbn. destruct ((u =? a) && (v =? b)); cbn; lia. }
  rewrite !Ep, zlen_snoc.
  assert (S : forall q n a y, (q == inject_Z (Z.min n top))%Q -> 0 <= n -> y = a -> bit a -> (f32 (q + inject_Z y) == inject_Z (Z.min (n + a) top))%Q).
  { intros q n a y Eq Hn -> Ha. apply count32; assumption. }
  split; [|split; [|split; [|split]]].
  1-4: apply S; [assumption|apply pairs_nonneg| |]; destruct H1 as [-> | ->], H2 as [-> | ->]; unfold bit; cbn; auto.
  change 1%Q with (inject_Z 1). apply S; [exact Il|unfold zlen; lia|reflexivity|right; reflexivity].
Qed.

Lemma qmax_inject a b : (qmax (inject_Z a) (inject_Z b) == inject_Z (Z.max a b))%Q.
Proof. unfold qmax. destruct (Qle_bool_spec (inject_Z a) (inject_Z b)) as [L|L]; [pose proof (proj1 (inject_Z_le_iff _ _) L)|pose proof (proj1 (inject_Z_lt_iff _ _) L)]; apply inject_Z_eq; lia. Qed.
Lemma qmin_inject a b : (qmin (inject_Z a) (inject_Z b) == inject_Z (Z.min a b))%Q.
Proof. unfold qmin. destruct (Qle_bool_spec (inject_Z a) (inject_Z b)) as [L|L]; [pose proof (proj1 (inject_Z_le_iff _ _) L)|pose proof (proj1 (inject_Z_lt_iff _ _) L)]; apply inject_Z_eq; lia. Qed.
Lemma qmax_comp a a' b b' : (a == a')%Q -> (b == b')%Q -> (qmax a b == qmax a' b')%Q.
Proof. intros E1 E2. unfold qmax. qcases; lra. Qed.
Lemma qmin_comp a a' b b' : (a == a')%Q -> (b == b')%Q -> (qmin a b == qmin a' b')%Q.
Proof. intros E1 E2. unfold qmin. qcases; lra. Qed.

Lemma f32_op q n : (q == inject_Z n)%Q -> - (2 ^ 24) <= n <= 2 ^ 24 -> (f32 q == inject_Z n)%Q.
Proof. intros E H. apply f32_int_comp; [exact E|lia]. Qed.

(** Up to 4096 cycles only the final quotient is rounded. *)
Theorem corr32_short : forall h, Forall bitpair h -> zlen h <= 4096 ->
  (corr32_forward (corr32_monitors corr32_init h) ==
   f32 (corr_forward (corr_monitors corr_init (map (fun p => (fst p, Some (snd p))) h))))%Q.
Proof.
  intros h Hb Hl. destruct (corr32_counters h Hb) as (Ea & Eb & Ec & Ed & El).
  fold (two_arg h). rewrite (corr_forward_val h Hb). pose proof (pairs_total h Hb) as Tot. unfold corr_val.
  set (s := corr32_monitors corr32_init h) in *. clearbody s.
  set (a := pairs 1 1 h) in *. set (b := pairs 1 0 h) in *. set (c := pairs 0 1 h) in *. set (d := pairs 0 0 h) in *.
  assert (Pa : 0 <= a) by apply pairs_nonneg. assert (Pb : 0 <= b) by apply pairs_nonneg.
  assert (Pc : 0 <= c) by apply pairs_nonneg. assert (Pd : 0 <= d) by apply pairs_nonneg.
  clearbody a b c d. rewrite !Z.min_l in * by lia. rewrite <- Tot in El, Hl. clear Tot Hb.
  set (n := a + b + c + d) in *.
  unfold corr32_forward, corr_forward. cbn [co_a co_b co_c co_d co_len].
  set (x := a * d - b * c).
  assert (K : forall u v, 0 <= u <= 4096 -> 0 <= v <= 4096 -> 0 <= u * v <= 2 ^ 24).
  { intros u v Hu Hv. change (2 ^ 24) with (4096 * 4096). split; [apply Z.mul_nonneg_nonneg; lia|apply Z.mul_le_mono_nonneg; lia]. }
  assert (B1 : 0 <= a * d <= 2 ^ 24) by (apply K; lia). assert (B2 : 0 <= b * c <= 2 ^ 24) by (apply K; lia).
  assert (Bm : 0 <= Z.min (a + b) (a + c) * n <= 2 ^ 24) by (apply K; lia). assert (Bp : 0 <= (a + b) * (a + c) <= 2 ^ 24) by (apply K; lia).
  assert (Bx : 0 <= Z.max (a - d) 0 * n <= 2 ^ 24) by (apply K; lia).
  assert (Fx : (f32 (f32 (c32_a s * c32_d s) - f32 (c32_b s * c32_c s)) == inject_Z x)%Q).
  { apply f32_op; [|unfold x; lia]. rewrite (f32_op (c32_a s * c32_d s) (a * d)), (f32_op (c32_b s * c32_c s) (b * c)); try lia;
      try (rewrite ?Ea, ?Eb, ?Ec, ?Ed, inject_Z_mult; reflexivity).
    unfold x, Z.sub. rewrite inject_Z_plus, inject_Z_opp. reflexivity. }
  assert (Fab : (f32 (c32_a s + c32_b s) == inject_Z (a + b))%Q) by (apply f32_op; [rewrite Ea, Eb, inject_Z_plus; reflexivity|unfold n in *; lia]).
  assert (Fac : (f32 (c32_a s + c32_c s) == inject_Z (a + c))%Q) by (apply f32_op; [rewrite Ea, Ec, inject_Z_plus; reflexivity|unfold n in *; lia]).
  assert (Fad : (f32 (c32_a s - c32_d s) == inject_Z (a - d))%Q)
    by (apply f32_op; [rewrite Ea, Ed; unfold Z.sub; rewrite inject_Z_plus, inject_Z_opp; reflexivity|unfold n in *; lia]).
  set (X := f32 (f32 (c32_a s * c32_d s) - f32 (c32_b s * c32_c s))) in *. clearbody X.
  set (AB := f32 (c32_a s + c32_b s)) in *. clearbody AB. set (AC := f32 (c32_a s + c32_c s)) in *. clearbody AC.
  set (AD := f32 (c32_a s - c32_d s)) in *. clearbody AD.
  assert (Fp : (f32 (AB * AC) == inject_Z ((a + b) * (a + c)))%Q) by (apply f32_op; [rewrite Fab, Fac, inject_Z_mult; reflexivity|lia]).
  assert (Fm : (f32 (qmin AB AC * c32_len s) == inject_Z (Z.min (a + b) (a + c) * n))%Q).
  { apply f32_op; [|lia]. rewrite (qmin_comp _ _ _ _ Fab Fac), qmin_inject, El, inject_Z_mult. reflexivity. }
  assert (Fz : (f32 (qmax AD 0 * c32_len s) == inject_Z (Z.max (a - d) 0 * n))%Q).
  { apply f32_op; [|lia]. rewrite (qmax_comp _ _ _ (inject_Z 0) Fad ltac:(reflexivity)), qmax_inject, El, inject_Z_mult. reflexivity. }
  assert (D1 : (qmax (f32 (f32 (qmin AB AC * c32_len s) - f32 (AB * AC))) 1 == inject_Z (Z.max (Z.min (a + b) (a + c) * n - (a + b) * (a + c)) 1))%Q).
  { rewrite <- qmax_inject. apply qmax_comp; [|reflexivity]. apply f32_op; [|lia]. rewrite Fm, Fp. unfold Z.sub. rewrite inject_Z_plus, inject_Z_opp. reflexivity. }
  assert (D2 : (qmax (f32 (f32 (AB * AC) - f32 (qmax AD 0 * c32_len s))) 1 == inject_Z (Z.max ((a + b) * (a + c) - Z.max (a - d) 0 * n) 1))%Q).
  { rewrite <- qmax_inject. apply qmax_comp; [|reflexivity]. apply f32_op; [|lia]. rewrite Fz, Fp. unfold Z.sub. rewrite inject_Z_plus, inject_Z_opp. reflexivity. }
  assert (G : qgt X 0 = (x >? 0)).
  { rewrite (qgt_comp X (inject_Z x) 0 Fx). unfold qgt. change 0%Q with (inject_Z 0). destruct (Qle_bool_spec (inject_Z x) (inject_Z 0)) as [L|L]; cbn [negb];
      [pose proof (proj1 (inject_Z_le_iff _ _) L)|pose proof (proj1 (inject_Z_lt_iff _ _) L)]; destruct (Z.gtb_spec x 0); try reflexivity; lia. }
  rewrite G. rewrite D1, D2, Fx.
  set (q1 := (inject_Z x / inject_Z (Z.max (Z.min (a + b) (a + c) * n - (a + b) * (a + c)) 1))%Q).
  set (q2 := (inject_Z x / inject_Z (Z.max ((a + b) * (a + c) - Z.max (a - d) 0 * n) 1))%Q).
  clearbody q1 q2.
  assert (Ff : forall q, (f32 (f32 q) == f32 q)%Q) by (intros q; apply f32_fixed, f32_single).
  assert (F0 : (f32 0 == 0)%Q) by reflexivity. assert (F1 : (f32 1 == 1)%Q) by (vm_compute; reflexivity).
  destruct (x >? 0); cbn [b2z]; change (inject_Z 1) with 1%Q; change (inject_Z 0) with 0%Q.
  - assert (E : (f32 (1 - 1) == 0)%Q) by (rewrite f32_zero by ring; reflexivity). rewrite E.
    assert (E2 : (f32 (0 * f32 q2) == 0)%Q) by (rewrite f32_zero by ring; reflexivity). rewrite E2.
    rewrite Qplus_0_r, Qmult_1_l, !Ff. change (inject_Z (1 - 1)) with 0%Q. rewrite Qmult_0_l, Qplus_0_r, Qmult_1_l. reflexivity.
  - assert (E : (f32 (1 - 0) == 1)%Q) by (vm_compute; reflexivity). rewrite E.
    assert (E2 : (f32 (0 * f32 q1) == 0)%Q) by (rewrite f32_zero by ring; reflexivity). rewrite E2.
    rewrite Qplus_0_l, Qmult_1_l, !Ff. change (inject_Z (1 - 0)) with 1%Q. rewrite Qmult_0_l, Qplus_0_l, Qmult_1_l. reflexivity.
Qed.

(** Longer histories: the sign of a*d - b*c is lost in the rounding of the products. *)
Definition rep4 (a b c d : nat) : list (Z * Z) := repeat (1, 1) a ++ repeat (1, 0) b ++ repeat (0, 1) c ++ repeat (0, 0) d.

Lemma countb_repeat {A} (f : A -> bool) x n : countb f (repeat x n) = if f x then Z.of_nat n else 0.
Proof.
  induction n as [|n IH]; [destruct (f x); reflexivity|]. cbn [repeat countb]. rewrite IH. destruct (f x); cbn [b2z]; lia.
Qed.

Lemma rep4_pairs a b c d : let h := rep4 a b c d in Forall bitpair h /\
  pairs 1 1 h = Z.of_nat a /\ pairs 1 0 h = Z.of_nat b /\ pairs 0 1 h = Z.of_nat c /\ pairs 0 0 h = Z.of_nat d /\
  zlen h = Z.of_nat (a + b + c + d).
Proof.
  cbn zeta. unfold rep4. split; [|unfold pairs; rewrite !countb_app, !countb_repeat; cbn [fst snd Z.eqb Pos.eqb andb];
    repeat (split; [lia|]); unfold zlen; rewrite !app_length, !repeat_length; lia].
  repeat rewrite Forall_app. repeat split; apply Forall_forall; intros p Hp; apply repeat_spec in Hp; subst p; split; cbn; unfold bit; auto.
Qed.

Lemma corr32_zero s : (f32 (f32 (c32_a s * c32_d s) - f32 (c32_b s * c32_c s)) == 0)%Q -> (corr32_forward s == 0)%Q.
Proof.
  intros E. unfold corr32_forward. set (X := f32 (f32 (c32_a s * c32_d s) - f32 (c32_b s * c32_c s))) in *. clearbody X.
  assert (D : forall q, (f32 (X / q) == 0)%Q) by (intros q; rewrite f32_zero by (rewrite E; unfold Qdiv; ring); reflexivity).
  assert (M : forall p q, (f32 (p * f32 (X / q)) == 0)%Q) by (intros p q; rewrite f32_zero by (rewrite D; ring); reflexivity).
  rewrite f32_zero; [reflexivity|]. rewrite !M. reflexivity.
Qed.

Theorem corr32_sign : exists h, Forall bitpair h /\ zlen h = 16388 /\
  (0 < corr_forward (corr_monitors corr_init (map (fun p => (fst p, Some (snd p))) h)))%Q /\
  (corr32_forward (corr32_monitors corr32_init h) == 0)%Q.
Proof.
  exists (rep4 (Z.to_nat 4097) (Z.to_nat 4096) (Z.to_nat 4098) (Z.to_nat 4097)).
  destruct (rep4_pairs (Z.to_nat 4097) (Z.to_nat 4096) (Z.to_nat 4098) (Z.to_nat 4097)) as (Hb & Pa & Pb & Pc & Pd & Pl).
  set (h := rep4 _ _ _ _) in *. clearbody h. rewrite !Nat2Z.inj_add in Pl. rewrite !Z2Nat.id in * by lia.
  split; [exact Hb|]. split; [lia|]. split.
  - fold (two_arg h). rewrite (corr_forward_val h Hb), Pa, Pb, Pc, Pd. vm_compute. reflexivity.
  - destruct (corr32_counters h Hb) as (Ea & Eb & Ec & Ed & _). rewrite Pa in Ea. rewrite Pb in Eb. rewrite Pc in Ec. rewrite Pd in Ed.
    set (s := corr32_monitors corr32_init h) in *. clearbody s. apply corr32_zero.
    rewrite Ea, Eb, Ec, Ed. vm_compute. reflexivity.
Qed.

(** ** FSUAdd *)
Lemma dyadic_plus g a b : dyadic g a -> dyadic g b -> dyadic g (a + b).
Proof. intros [n E] [m F]. exists (n + m). rewrite E, F, inject_Z_plus. ring. Qed.
Lemma dyadic_opp g a : dyadic g a -> dyadic g (- a).
Proof. intros [n E]. exists (- n). rewrite E, inject_Z_opp. ring. Qed.
Lemma dyadic_comp g a b : (a == b)%Q -> dyadic g a -> dyadic g b.
Proof. intros H [n E]. exists n. rewrite <- H. exact E. Qed.
Lemma dyadic_minus g a b : dyadic g a -> dyadic g b -> dyadic g (a - b).
Proof. intros. apply dyadic_plus; [assumption|apply dyadic_opp; assumption]. Qed.
Lemma dyadic_mono g g' a : g <= g' -> dyadic g a -> dyadic g' a.
Proof.
  intros H [n E]. exists (n * 2 ^ (g' - g)). rewrite E. change (Qpower 2 (- g)) with (qpow2 (- g)). change (Qpower 2 (- g')) with (qpow2 (- g')).
  rewrite (multiple_split n (- g) (- g')) by lia. replace (- g - - g') with (g' - g) by lia. reflexivity.
Qed.
Lemma dyadic_int g n : 0 <= g -> dyadic g (inject_Z n).
Proof. intros H. apply (dyadic_mono 0); [exact H|]. exists n. change (Qpower 2 (- 0)) with 1%Q. ring. Qed.
Lemma dyadic_pow g k : - g <= k -> dyadic g (qpow2 k).
Proof. intros H. exists (2 ^ (k + g)). change (Qpower 2 (- g)) with (qpow2 (- g)). rewrite <- qpow2_Z, <- qpow2_add by lia. replace (k + g + - g) with k by lia. reflexivity. Qed.
Lemma dyadic_half g a : dyadic g a -> dyadic (g + 1) (a / 2).
Proof.
  intros [n E]. exists n. rewrite E. change (Qpower 2 (- g)) with (qpow2 (- g)). change (Qpower 2 (- (g + 1))) with (qpow2 (- (g + 1))).
  replace (- g) with (- (g + 1) + 1) by lia. rewrite qpow2_double. field.
Qed.
Lemma dyadic_clamp g lo hi a : dyadic g lo -> dyadic g hi -> dyadic g a -> dyadic g (qclamp lo hi a).
Proof. intros. unfold qclamp, qmin, qmax. destruct (Qle_bool a lo); [destruct (Qle_bool lo hi)|destruct (Qle_bool a hi)]; assumption. Qed.
Lemma qclamp_comp lo hi a b : (a == b)%Q -> (qclamp lo hi a == qclamp lo hi b)%Q.
Proof. intros E. unfold qclamp, qmax. qcases; unfold qmin; qcases; lra. Qed.
Lemma qclamp_abs lim a : (0 <= lim)%Q -> (Qabs (qclamp (- lim) lim a) <= lim)%Q.
Proof. intros H. apply Qabs_Qle_condition. unfold qclamp, qmax. qcases; unfold qmin; qcases; lra. Qed.

Definition add32_lane (lim s off acc : Q) (col : list Z) : Q * Z := acc32_step lim s (f32 (inject_Z (zsum col) - off)) acc.

Lemma qge_comp a a' b b' : (a == a')%Q -> (b == b')%Q -> qge a b = qge a' b'.
Proof. intros E1 E2. unfold qge. destruct (Qle_bool_spec b a), (Qle_bool_spec b' a'); try reflexivity; lra. Qed.

Lemma add32_lane_step lim s s' off off' acc acc' col g E : -1 <= g <= 148 -> (0 < lim)%Q -> dyadic (g + 1) lim -> dyadic (g + 1) s -> dyadic (g + 1) off ->
  (s' == s)%Q -> (off' == off)%Q -> (acc' == acc)%Q -> dyadic (g + 1) acc -> (Qabs acc <= lim)%Q ->
  0 <= zsum col <= E -> (lim + inject_Z E + Qabs off + Qabs s <= qpow2 (23 - g))%Q ->
  snd (add32_lane lim s' off' acc' col) = snd (add_lane lim s off acc col) /\
  (fst (add32_lane lim s' off' acc' col) == fst (add_lane lim s off acc col))%Q /\
  dyadic (g + 1) (fst (add_lane lim s off acc col)) /\ (Qabs (fst (add_lane lim s off acc col)) <= lim)%Q.
Proof.
  intros Hg Pl Dl Ds Do Es Eo Ea Da Ba Hc B. unfold add32_lane, add_lane, acc32_step, acc_step. cbn [fst snd].
  replace (23 - g) with (24 - (g + 1)) in B by lia. set (k := g + 1) in *.
  assert (Hk : 0 <= k <= 149) by lia. pose proof (Qabs_nonneg off) as O0. pose proof (Qabs_nonneg s) as S0.
  assert (Z0 : (0 <= inject_Z (zsum col) /\ inject_Z (zsum col) <= inject_Z E)%Q) by (split; [change 0%Q with (inject_Z 0)|]; apply inject_Z_le_iff; lia).
  pose proof (Qle_Qabs off) as O1. pose proof (Qle_Qabs (- off)) as O2. rewrite Qabs_opp in O2.
  pose proof (Qle_Qabs s) as S1. pose proof (Qle_Qabs (- s)) as S2. rewrite Qabs_opp in S2.
  pose proof Ba as Ba'. apply Qabs_Qle_condition in Ba'.
  assert (F1 : (f32 (inject_Z (zsum col) - off') == inject_Z (zsum col) - off)%Q).
  { rewrite Eo. apply (f32_dyadic k); [lia|apply dyadic_minus; [apply dyadic_int; lia|exact Do]|]. apply Qabs_Qle_condition. lra. }
  set (d := (inject_Z (zsum col) - off)%Q) in *.
  assert (F2 : (f32 (acc' + f32 (inject_Z (zsum col) - off')) == acc + d)%Q).
  { rewrite F1, Ea. apply (f32_dyadic k); [lia|apply dyadic_plus; [exact Da|unfold d; apply dyadic_minus; [apply dyadic_int; lia|exact Do]]|].
    apply Qabs_Qle_condition. unfold d. lra. }
  set (a1 := qclamp (- lim) lim (acc + d)).
  assert (F3 : (qclamp (- lim) lim (f32 (acc' + f32 (inject_Z (zsum col) - off'))) == a1)%Q) by (apply qclamp_comp, F2).
  assert (Dd : dyadic k d) by (unfold d; apply dyadic_minus; [apply dyadic_int; lia|exact Do]).
  assert (D1 : dyadic k a1) by (apply dyadic_clamp; [apply dyadic_opp; exact Dl|exact Dl|apply dyadic_plus; assumption]).
  assert (B1 : (Qabs a1 <= lim)%Q) by (apply qclamp_abs; lra).
  set (A1 := qclamp (- lim) lim (f32 (acc' + f32 (inject_Z (zsum col) - off')))) in *. clearbody A1.
  rewrite (qge_comp A1 a1 s' s F3 Es). split; [reflexivity|].
  apply Qabs_Qle_condition in B1.
  assert (F4 : (f32 (inject_Z (b2z (qge a1 s)) * s') == inject_Z (b2z (qge a1 s)) * s)%Q).
  { rewrite Es. destruct (qge a1 s); cbn [b2z]; change (inject_Z 1) with 1%Q; change (inject_Z 0) with 0%Q.
    - rewrite !Qmult_1_l. apply (f32_dyadic k); [lia|exact Ds|]. lra.
    - rewrite f32_zero by ring. ring. }
  assert (D4 : dyadic k (a1 - inject_Z (b2z (qge a1 s)) * s)).
  { apply dyadic_minus; [exact D1|]. destruct (qge a1 s); cbn [b2z]; change (inject_Z 1) with 1%Q; change (inject_Z 0) with 0%Q.
    - apply (dyadic_comp k s); [ring|exact Ds].
    - apply (dyadic_comp k (inject_Z 0)); [cbn; ring|apply dyadic_int; lia]. }
  assert (F5 : (f32 (A1 - f32 (inject_Z (b2z (qge a1 s)) * s')) == a1 - inject_Z (b2z (qge a1 s)) * s)%Q).
  { rewrite F4, F3. apply (f32_dyadic k); [lia|exact D4|]. apply Qabs_Qle_condition.
    destruct (qge a1 s); cbn [b2z]; change (inject_Z 1) with 1%Q; change (inject_Z 0) with 0%Q; lra. }
  split; [apply qclamp_comp, F5|]. split; [apply dyadic_clamp; [apply dyadic_opp; exact Dl|exact Dl|exact D4]|apply qclamp_abs; lra].
Qed.

Lemma add32_lane_outs lim s s' off off' g E : -1 <= g <= 148 -> (0 < lim)%Q -> dyadic (g + 1) lim -> dyadic (g + 1) s -> dyadic (g + 1) off ->
  (s' == s)%Q -> (off' == off)%Q -> (lim + inject_Z E + Qabs off + Qabs s <= qpow2 (23 - g))%Q ->
  forall cols acc acc', (acc' == acc)%Q -> dyadic (g + 1) acc -> (Qabs acc <= lim)%Q -> Forall (fun col => 0 <= zsum col <= E) cols ->
  outs (add32_lane lim s' off') acc' cols = outs (add_lane lim s off) acc cols.
Proof.
  intros Hg Pl Dl Ds Do Es Eo B. induction cols as [|col cols IH]; intros acc acc' Ea Da Ba Hc; [reflexivity|].
  pose proof (Forall_inv Hc) as H1. apply Forall_inv_tail in Hc.
  destruct (add32_lane_step lim s s' off off' acc acc' col g E Hg Pl Dl Ds Do Es Eo Ea Da Ba H1 B) as (X1 & X2 & X3 & X4).
  rewrite !outs_cons, X1. f_equal. apply IH; assumption.
Qed.

Lemma fsuadd32_after c e s off acc cols :
  outs (fsuadd32_step c) (add_state c e s off acc) cols = outs (add32_lane (acc_lim (fa_depth c)) s off) acc cols.
Proof.
  revert acc. induction cols as [|col cols IH]; intros acc; [reflexivity|]. rewrite !outs_cons.
  assert (S : fsuadd32_step c (add_state c e s off acc) col =
    (add_state c e s off (fst (add32_lane (acc_lim (fa_depth c)) s off acc col)), snd (add32_lane (acc_lim (fa_depth c)) s off acc col))).
  { unfold fsuadd32_step, fsuadd32_resolve, add_state. cbn [fs_first fs_offset fs_scale fs_acc fs_entry].
    unfold add32_lane. destruct (acc32_step _ s _ acc) as [acc' o]. reflexivity. }
  rewrite S. cbn [fst snd]. rewrite IH. reflexivity.
Qed.

(** When entry, scale and depth keep every sum below 24 bits on a binary grid, the float32 adder is the exact one. *)
Theorem fsuadd32_exact : forall c col cols g E,
  let e := match fa_entry c with Some e => e | None => zlen col end in
  let s := match fa_scale c with Some q => q | None => inject_Z e end in
  0 <= g <= 100 -> 2 - g - 1 <= fa_depth c -> dyadic g s ->
  Forall (fun x => 0 <= zsum x <= E) (col :: cols) -> 0 <= e <= E ->
  (qpow2 (fa_depth c - 2) + 2 * inject_Z E + 2 * Qabs s <= qpow2 (23 - g))%Q ->
  outs (fsuadd32_step c) (fsuadd_init c) (col :: cols) = outs (fsuadd_step c) (fsuadd_init c) (col :: cols).
Proof.
  intros c col cols g E e s Hg Hd Ds Hc He B.
  destruct (fsuadd_step_run c col cols) as [R _]. rewrite R. clear R.
  assert (Ee : resolved_entry None (fa_entry c) (zlen col) = e) by reflexivity. rewrite Ee.
  assert (Esc : resolved_scale None (fa_scale c) e = s) by reflexivity. rewrite Esc.
  set (off := mode_offset (fa_mode c) e s).
  set (off32 := match fa_mode c with Bipolar => f32 (f32 (inject_Z e - f32 s) / 2) | Unipolar => 0%Q end).
  assert (F : fsuadd32_step c (fsuadd_init c) col = fsuadd32_step c (add_state c e (f32 s) off32 0) col) by reflexivity.
  rewrite outs_cons, F, <- outs_cons, fsuadd32_after.
  assert (Pl : (0 < acc_lim (fa_depth c))%Q) by apply qpow2_pos.
  pose proof (Qabs_nonneg s) as S0. fold (acc_lim (fa_depth c)) in B.
  assert (E0 : (0 <= inject_Z e /\ inject_Z e <= inject_Z E)%Q) by (split; [change 0%Q with (inject_Z 0)|]; apply inject_Z_le_iff; lia).
  assert (Mb : (qpow2 (23 - g) <= qpow2 (24 - g))%Q) by (apply qpow2_le; lia).
  pose proof (Qle_Qabs s) as S1. pose proof (Qle_Qabs (- s)) as S2. rewrite Qabs_opp in S2.
  assert (Fs : (f32 s == s)%Q) by (apply (f32_dyadic g); [lia|exact Ds|lra]).
  assert (Dd : dyadic g (inject_Z e - s)) by (apply dyadic_minus; [apply dyadic_int; lia|exact Ds]).
  assert (Fd : (f32 (inject_Z e - f32 s) == inject_Z e - s)%Q).
  { rewrite Fs. apply (f32_dyadic g); [lia|exact Dd|]. apply Qabs_Qle_condition. lra. }
  assert (Do : dyadic (g + 1) off) by (unfold off, mode_offset; destruct (fa_mode c); [apply (dyadic_int (g + 1) 0); lia|apply dyadic_half, Dd]).
  assert (Bo : (Qabs off <= inject_Z E + Qabs s)%Q).
  { unfold off, mode_offset. destruct (fa_mode c); [change (Qabs 0) with 0%Q; lra|].
    apply Qabs_Qle_condition. assert (Eh : ((inject_Z e - s) / 2 == (1 # 2) * (inject_Z e - s))%Q) by field. rewrite Eh. lra. }
  assert (Eo : (off32 == off)%Q).
  { unfold off32, off, mode_offset. destruct (fa_mode c); [reflexivity|].
    assert (Eh : (f32 (inject_Z e - f32 s) / 2 == (inject_Z e - s) / 2)%Q) by (rewrite Fd; reflexivity). rewrite Eh.
    apply (f32_dyadic (g + 1)); [lia|apply dyadic_half, Dd|]. replace (24 - (g + 1)) with (23 - g) by lia.
    unfold off, mode_offset in Bo. destruct (fa_mode c); [|lra].
    apply Qabs_Qle_condition. assert (Ek : ((inject_Z e - s) / 2 == (1 # 2) * (inject_Z e - s))%Q) by field. rewrite Ek. lra. }
  apply (add32_lane_outs (acc_lim (fa_depth c)) s (f32 s) off off32 g E); try assumption; try lia; try reflexivity.
  - apply dyadic_pow. lia.
  - apply (dyadic_mono g); [lia|exact Ds].
  - lra.
  - apply (dyadic_int (g + 1) 0). lia.
  - change (Qabs 0) with 0%Q. lra.
Qed.

(** A scale that is not a binary fraction: the streams differ. *)
Theorem fsuadd32_thirds : exists c cols, Forall (Forall bit) cols /\
  outs (fsuadd32_step c) (fsuadd_init c) cols <> outs (fsuadd_step c) (fsuadd_init c) cols.
Proof.
  exists {| fa_mode := Unipolar; fa_scale := Some (1 # 3)%Q; fa_depth := 10; fa_entry := Some 1 |}, [[1]; [0]; [0]].
  split; [|vm_compute; discriminate].
  repeat (apply Forall_cons; [apply Forall_cons; [unfold bit; auto|apply Forall_nil]|]). apply Forall_nil.
Qed.

(** Streams longer than 2^24 with both values exist. *)
Lemma long_stream_of n m : Z.of_nat n = m -> exists xs, bits xs /\ m < zlen xs /\ 0 < ones xs < zlen xs \/ m < 2.
Proof.
  intros En. exists (1 :: repeat 0 n).
  assert (Eo : ones (1 :: repeat 0 n) = 1) by (unfold ones; cbn [countb]; rewrite countb_repeat; reflexivity).
  unfold zlen. cbn [length]. rewrite repeat_length. destruct (Z_lt_le_dec m 2) as [L|G]; [right; exact L|left].
  split; [|lia]. apply Forall_cons; [right; reflexivity|]. apply Forall_forall. intros x Hx. apply repeat_spec in Hx. left. exact Hx.
Qed.

Lemma long_stream_gen m : 2 <= m -> exists xs, bits xs /\ m < zlen xs /\ 0 < ones xs < zlen xs.
Proof. intros H. destruct (long_stream_of (Z.to_nat m) m (Z2Nat.id m ltac:(lia))) as (xs & [X|X]); [exists xs; exact X|lia]. Qed.

Lemma long_stream : exists xs, bits xs /\ 2 ^ 24 < zlen xs /\ 0 < ones xs < zlen xs.
Proof. apply long_stream_gen. discriminate. Qed.
