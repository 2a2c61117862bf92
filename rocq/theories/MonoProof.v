(** Proofs that addition and unipolar layers are monotone, and how far a difference in the past can reach. *)
Require Import Verif.BaseLemmas Verif.MonoSpec Verif.AddModel Verif.AddProof Verif.GenModel Verif.GenProof Verif.KernelProof Verif.LinearModel Verif.LinearProof Verif.ChainSpec Verif.ChainProof Verif.ProgProof Verif.HubProof Verif.NetSpec Verif.NetProof.
From Coq Require Import Lqa.
Open Scope Z_scope.

Section Lane.
  Variables (lim s off : Q).
  Hypothesis (Hs : (0 < s)%Q) (Hl : (0 <= lim)%Q).

  (** The relation between the two accumulators while the second has emitted n ones more and z more could still be paid. *)
  Definition apart (a1 a2 : Q) (n z : Z) : Prop :=
    (0 <= n /\ ((a1 <= a2)%Q \/ 1 <= n /\ (a1 - s < a2)%Q)) /\ 0 <= z /\ (a2 - a1 <= inject_Z z * s)%Q.

  Lemma acc_facts d a : exists b, (b == qclamp (- lim) lim (a + d))%Q /\
    ((s <= b)%Q /\ snd (acc_step lim s d a) = 1 /\ (fst (acc_step lim s d a) == b - s)%Q \/
     (b < s)%Q /\ snd (acc_step lim s d a) = 0 /\ (fst (acc_step lim s d a) == b)%Q).
  Proof using Hs Hl.
    exists (qclamp (- lim) lim (a + d)). split; [reflexivity|]. unfold acc_step. cbn [fst snd].
    pose proof (qclamp_range (- lim) lim (a + d)) as R. assert (R' : (- lim <= lim)%Q) by lra. destruct (R R') as [R1 R2]. clear R R'.
    set (b := qclamp (- lim) lim (a + d)) in *. unfold qge. destruct (Qle_bool_spec s b) as [H|H]; cbn [b2z].
    - left. split; [exact H|]. split; [reflexivity|]. rewrite qclamp_id; change (inject_Z 1) with 1%Q; lra.
    - right. split; [lra|]. split; [reflexivity|]. rewrite qclamp_id; change (inject_Z 0) with 0%Q; lra.
  Qed.
  Lemma clamp_gap x y g : (0 <= g)%Q -> (y - x <= g)%Q -> (qclamp (- lim) lim y - qclamp (- lim) lim x <= g)%Q.
  Proof. intros H1 H2. unfold qclamp, qmin, qmax. qcases; lra. Qed.
  Lemma clamp_gap_strict x y g : (0 < g)%Q -> (x - y < g)%Q -> (qclamp (- lim) lim x - qclamp (- lim) lim y < g)%Q.
  Proof. intros H1 H2. unfold qclamp, qmin, qmax. qcases; lra. Qed.

  Lemma ceil_ge d : (d <= inject_Z (Qceiling (d / s)) * s)%Q.
  Proof using Hs.
    pose proof (Qle_ceiling (d / s)) as H. setoid_replace d with (d / s * s)%Q at 1 by (field; lra).
    apply Qmult_le_compat_r; [exact H|lra].
  Qed.
  Lemma ceil_nonneg d : (0 <= d)%Q -> 0 <= Qceiling (d / s).
  Proof using Hs.
    intros H. change 0 with (Qceiling 0). apply Qceiling_resp_le. apply Qle_shift_div_l; [exact Hs|lra].
  Qed.

  Lemma acc_apart a1 a2 d1 d2 n z : (d1 <= d2)%Q -> apart a1 a2 n z ->
    let o1 := snd (acc_step lim s d1 a1) in let o2 := snd (acc_step lim s d2 a2) in
    apart (fst (acc_step lim s d1 a1)) (fst (acc_step lim s d2 a2)) (n + o2 - o1) (z + Qceiling ((d2 - d1) / s) - (o2 - o1)).
  Proof using Hs Hl.
    intros Hd [[Hn Ho] [Hz Hu]]. cbn zeta.
    destruct (acc_facts d1 a1) as (b1 & B1 & F1). destruct (acc_facts d2 a2) as (b2 & B2 & F2).
    set (c := Qceiling ((d2 - d1) / s)) in *. assert (Hc : 0 <= c) by (apply ceil_nonneg; lra).
    assert (Hc' : (d2 - d1 <= inject_Z c * s)%Q) by (apply ceil_ge).
    assert (G : (b2 - b1 <= inject_Z (z + c) * s)%Q).
    { rewrite B1, B2. apply clamp_gap.
      - apply Qmult_le_0_compat; [|lra]. change 0%Q with (inject_Z 0). rewrite <- Zle_Qle. lia.
      - rewrite inject_Z_plus. lra. }
    assert (L : (b1 <= b2)%Q \/ 1 <= n /\ (b1 - s < b2)%Q).
    { destruct Ho as [Ho|[Ho1 Ho2]].
      - left. rewrite B1, B2. apply qclamp_mono. lra.
      - right. split; [exact Ho1|]. pose proof (clamp_gap_strict (a1 + d1) (a2 + d2) s Hs) as X. rewrite <- B1, <- B2 in X.
        assert (X1 : (a1 + d1 - (a2 + d2) < s)%Q) by lra. specialize (X X1). lra. }
    clear Ho B1 B2 Hu Hc'. clearbody c. unfold apart.
    destruct F1 as [(T1 & -> & E1)|(T1 & -> & E1)], F2 as [(T2 & -> & E2)|(T2 & -> & E2)].
    - split; [|split; [lia|]].
      + split; [lia|]. destruct L as [L|[L1 L2]]; [left; lra|right; split; [lia|lra]].
      + replace (z + c - (1 - 1)) with (z + c) by lia. rewrite E1, E2. lra.
    - destruct L as [L|[L1 L2]]; [exfalso; lra|]. split; [|split; [lia|]].
      + split; [lia|]. left. lra.
      + replace (z + c - (0 - 1)) with (z + c + 1) by lia. rewrite inject_Z_plus, E1, E2. change (inject_Z 1) with 1%Q. lra.
    - split; [|split].
      + split; [lia|]. right. split; [lia|lra].
      + assert (z + c <> 0); [|lia]. intros E. rewrite E in G. change (inject_Z 0) with 0%Q in G. lra.
      + replace (z + c - (1 - 0)) with (z + c + - (1)) by lia. rewrite inject_Z_plus, E1, E2. change (inject_Z (- (1))) with (- (1))%Q. lra.
    - split; [|split; [lia|]].
      + split; [lia|]. destruct L as [L|[L1 L2]]; [left; lra|right; split; [lia|lra]].
      + replace (z + c - (0 - 0)) with (z + c) by lia. rewrite E1, E2. lra.
  Qed.

  Lemma lanes_apart : forall cols1 cols2 a1 a2 n z, columns_le cols1 cols2 -> apart a1 a2 n z ->
    apart (final (add_lane lim s off) a1 cols1) (final (add_lane lim s off) a2 cols2)
      (n + ones (outs (add_lane lim s off) a2 cols2) - ones (outs (add_lane lim s off) a1 cols1))
      (z + surplus s cols1 cols2 (length cols1)
       - (ones (outs (add_lane lim s off) a2 cols2) - ones (outs (add_lane lim s off) a1 cols1))).
  Proof using Hs Hl.
    induction cols1 as [|x cols1 IH]; intros cols2 a1 a2 n z H A; (destruct cols2 as [|x2 cols2]; [try (now inversion H)|try (now inversion H)]).
    - cbn. replace (n + 0 - 0) with n by lia. unfold surplus. cbn. replace (z + 0 - 0) with z by lia. exact A.
    - inversion H as [|? ? ? ? Hx Hr]; subst.
      assert (Hd : (inject_Z (zsum x) - off <= inject_Z (zsum x2) - off)%Q) by (rewrite Zle_Qle in Hx; lra).
      pose proof (acc_apart a1 a2 _ _ n z Hd A) as A'. cbn zeta in A'.
      specialize (IH cols2 _ _ _ _ Hr A'). rewrite !outs_cons, !final_cons, !ones_cons.
      change (acc_step lim s (inject_Z (zsum x) - off) a1) with (add_lane lim s off a1 x) in *.
      change (acc_step lim s (inject_Z (zsum x2) - off) a2) with (add_lane lim s off a2 x2) in *.
      assert (Es : surplus s (x :: cols1) (x2 :: cols2) (length (x :: cols1)) =
        Qceiling ((inject_Z (zsum x2) - off - (inject_Z (zsum x) - off)) / s) + surplus s cols1 cols2 (length cols1)).
      { unfold surplus. cbn [length seq map zsum nth]. f_equal.
        - apply Qceiling_comp. unfold Zminus. rewrite inject_Z_plus, inject_Z_opp. field. lra.
        - rewrite <- seq_shift, map_map. reflexivity. }
      rewrite Es.
      pose proof (add_lane_out_bit lim s off a1 x) as O1. pose proof (add_lane_out_bit lim s off a2 x2) as O2.
      assert (EB : forall v, bit v -> (if 1 =? v then 1 else 0) = v) by (intros v [->| ->]; reflexivity).
      rewrite (EB _ O1), (EB _ O2). clear EB.
      match goal with |- apart _ _ ?n1 ?z1 => match type of IH with apart _ _ ?n2 ?z2 => replace n1 with n2 by lia; replace z1 with z2 by lia end end.
      exact IH.
  Qed.
End Lane.

Lemma columns_le_firstn t : forall cols1 cols2, columns_le cols1 cols2 -> columns_le (firstn t cols1) (firstn t cols2).
Proof.
  induction t as [|t IH]; intros cols1 cols2 H; [constructor|]. destruct H as [|x y l1 l2 H1 H2]; [constructor|].
  cbn [firstn]. constructor; [exact H1|apply IH, H2].
Qed.
Lemma columns_le_refl cols : columns_le cols cols.
Proof. induction cols; constructor; [lia|assumption]. Qed.
Lemma columns_le_length cols1 cols2 : columns_le cols1 cols2 -> length cols1 = length cols2.
Proof. induction 1; cbn [length]; congruence. Qed.
Lemma nth_firstn_low {A} (d : A) : forall l n i, (i < n)%nat -> nth i (firstn n l) d = nth i l d.
Proof. induction l as [|x l IH]; intros [|n] [|i] H; cbn [firstn nth]; try lia; try reflexivity. apply IH. lia. Qed.
Lemma surplus_firstn s cols1 cols2 t k : (t <= k)%nat -> surplus s (firstn k cols1) (firstn k cols2) t = surplus s cols1 cols2 t.
Proof.
  intros H. unfold surplus. f_equal. apply map_ext_in. intros i Hi. apply in_seq in Hi. rewrite !nth_firstn_low by lia. reflexivity.
Qed.
Lemma surplus_same s cols t : surplus s cols cols t = 0.
Proof.
  unfold surplus. induction (seq 0 t) as [|i l IH]; [reflexivity|]. cbn [map zsum]. rewrite IH. rewrite Z.sub_diag. change (inject_Z 0) with 0%Q.
  rewrite (Qceiling_comp (0 / s) 0); [reflexivity|]. unfold Qdiv. apply Qmult_0_l.
Qed.

Lemma lane_mono lim s off cols1 cols2 : (0 < s)%Q -> (0 <= lim)%Q -> columns_le cols1 cols2 -> forall a1 a2, (a1 <= a2)%Q ->
  forall z, 0 <= z -> (a2 - a1 <= inject_Z z * s)%Q ->
  behind_by (fun t => z + surplus s cols1 cols2 t) (outs (add_lane lim s off) a1 cols1) (outs (add_lane lim s off) a2 cols2).
Proof.
  intros Hs Hl H a1 a2 Ha z Hz Hu t Ht. rewrite outs_length in Ht. rewrite <- !BaseLemmas.outs_firstn.
  assert (A : apart s a1 a2 0 z) by (split; [split; [lia|left; exact Ha]|split; [exact Hz|exact Hu]]).
  pose proof (lanes_apart lim s off Hs Hl _ _ a1 a2 0 z (columns_le_firstn t _ _ H) A) as [[X1 _] [X2 _]].
  rewrite firstn_length, Nat.min_l, surplus_firstn in X2 by lia. lia.
Qed.

(** ** The adder *)
Lemma step_lane c e s cols : resolved_entry None (fa_entry c) e = e -> resolved_scale None (fa_scale c) e = s ->
  Forall (fun col => zlen col = e) cols ->
  outs (fsuadd_step c) (fsuadd_init c) cols = outs (add_lane (acc_lim (fa_depth c)) s (mode_offset (fa_mode c) e s)) 0%Q cols /\
  fs_acc (final (fsuadd_step c) (fsuadd_init c) cols) = final (add_lane (acc_lim (fa_depth c)) s (mode_offset (fa_mode c) e s)) 0%Q cols.
Proof.
  intros He Hsc H. destruct cols as [|col cols]; [split; reflexivity|]. inversion H as [|? ? Hc _]; subst.
  pose proof (fsuadd_step_run c col cols) as R. cbn zeta in R. rewrite He in R. exact R.
Qed.
Lemma lim_pos d : (0 <= acc_lim d)%Q.
Proof. apply Qlt_le_weak, qpow2_pos. Qed.

Theorem add_mono : forall c e s cols1 cols2,
  resolved_entry None (fa_entry c) e = e -> resolved_scale None (fa_scale c) e = s -> (0 < s)%Q ->
  Forall (fun col => zlen col = e) cols1 -> Forall (fun col => zlen col = e) cols2 -> columns_le cols1 cols2 ->
  behind_by (surplus s cols1 cols2) (outs (fsuadd_step c) (fsuadd_init c) cols1) (outs (fsuadd_step c) (fsuadd_init c) cols2).
Proof.
  intros c e s cols1 cols2 He Hsc Hs H1 H2 H. rewrite (proj1 (step_lane c e s cols1 He Hsc H1)), (proj1 (step_lane c e s cols2 He Hsc H2)).
  pose proof (lane_mono (acc_lim (fa_depth c)) s (mode_offset (fa_mode c) e s) cols1 cols2 Hs (lim_pos _) H 0%Q 0%Q (Qle_refl 0) 0) as M.
  apply M; [lia|]. change (inject_Z 0) with 0%Q. lra.
Qed.

Lemma later_lane c e s g h : resolved_entry None (fa_entry c) e = e -> resolved_scale None (fa_scale c) e = s ->
  Forall (fun col => zlen col = e) g -> Forall (fun col => zlen col = e) h ->
  outs (fsuadd_step c) (final (fsuadd_step c) (fsuadd_init c) g) h =
  outs (add_lane (acc_lim (fa_depth c)) s (mode_offset (fa_mode c) e s)) (fs_acc (final (fsuadd_step c) (fsuadd_init c) g)) h.
Proof.
  intros He Hsc Hg Hh. assert (Ha : Forall (fun col => zlen col = e) (g ++ h)) by (apply Forall_app; split; assumption).
  pose proof (proj1 (step_lane c e s _ He Hsc Ha)) as E. rewrite !outs_app in E.
  destruct (step_lane c e s g He Hsc Hg) as [E1 E2]. rewrite E1 in E. apply app_inv_head in E. rewrite E2. exact E.
Qed.

Theorem add_past : forall c e s g1 g2 h,
  resolved_entry None (fa_entry c) e = e -> resolved_scale None (fa_scale c) e = s -> (0 < s)%Q ->
  Forall (fun col => zlen col = e) g1 -> Forall (fun col => zlen col = e) g2 -> Forall (fun col => zlen col = e) h ->
  let st g := final (fsuadd_step c) (fsuadd_init c) g in
  (fs_acc (st g1) <= fs_acc (st g2))%Q ->
  behind_by (fun _ => Qceiling ((fs_acc (st g2) - fs_acc (st g1)) / s))
    (outs (fsuadd_step c) (st g1) h) (outs (fsuadd_step c) (st g2) h).
Proof.
  intros c e s g1 g2 h He Hsc Hs H1 H2 H st Ha. unfold st. rewrite (later_lane c e s g1 h He Hsc H1 H), (later_lane c e s g2 h He Hsc H2 H).
  fold (st g1). fold (st g2). intros t Ht. assert (Hnn : (0 <= fs_acc (st g2) - fs_acc (st g1))%Q) by lra.
  pose proof (lane_mono (acc_lim (fa_depth c)) s (mode_offset (fa_mode c) e s) h h Hs (lim_pos _) (columns_le_refl h) _ _ Ha
    (Qceiling ((fs_acc (st g2) - fs_acc (st g1)) / s)) (ceil_nonneg s Hs _ Hnn) (ceil_ge s Hs _) t Ht) as M.
  cbv beta in M. rewrite surplus_same in M. lia.
Qed.

Theorem add_any_past : forall c e s g1 g2 h,
  resolved_entry None (fa_entry c) e = e -> resolved_scale None (fa_scale c) e = s -> (0 < s)%Q ->
  Forall (fun col => zlen col = e) g1 -> Forall (fun col => zlen col = e) g2 -> Forall (fun col => zlen col = e) h ->
  let later g := outs (fsuadd_step c) (final (fsuadd_step c) (fsuadd_init c) g) h in
  Z.abs (ones (later g2) - ones (later g1)) <= Qceiling (2 * qpow2 (fa_depth c - 2) / s).
Proof.
  assert (W : forall c e s g1 g2 h, resolved_entry None (fa_entry c) e = e -> resolved_scale None (fa_scale c) e = s -> (0 < s)%Q ->
    Forall (fun col => zlen col = e) g1 -> Forall (fun col => zlen col = e) g2 -> Forall (fun col => zlen col = e) h ->
    (fs_acc (final (fsuadd_step c) (fsuadd_init c) g1) <= fs_acc (final (fsuadd_step c) (fsuadd_init c) g2))%Q ->
    let later g := outs (fsuadd_step c) (final (fsuadd_step c) (fsuadd_init c) g) h in
    Z.abs (ones (later g2) - ones (later g1)) <= Qceiling (2 * qpow2 (fa_depth c - 2) / s)).
  { intros c e s g1 g2 h He Hsc Hs H1 H2 H Ha later.
    pose proof (add_past c e s g1 g2 h He Hsc Hs H1 H2 H Ha (length h)) as P. rewrite outs_length in P. specialize (P (Nat.le_refl _)).
    rewrite !firstn_all2 in P by (rewrite outs_length; lia). fold (later g1) in P. fold (later g2) in P.
    assert (R : forall g, Forall (fun col => zlen col = e) g ->
      (- qpow2 (fa_depth c - 2) <= fs_acc (final (fsuadd_step c) (fsuadd_init c) g) /\ fs_acc (final (fsuadd_step c) (fsuadd_init c) g) <= qpow2 (fa_depth c - 2))%Q).
    { intros g Hg. rewrite (proj2 (step_lane c e s g He Hsc Hg)). apply add_final_range, lim_pos. }
    destruct (R g1 H1) as [R1 _]. destruct (R g2 H2) as [_ R2]. clear R.
    match type of P with _ <= _ <= _ + Qceiling ?x => assert (Q1 : Qceiling x <= Qceiling (2 * qpow2 (fa_depth c - 2) / s)) end.
    { apply Qceiling_resp_le. unfold Qdiv. apply Qmult_le_compat_r; [lra|]. apply Qlt_le_weak, Qinv_lt_0_compat, Hs. }
    lia. }
  intros c e s g1 g2 h He Hsc Hs H1 H2 H.
  destruct (Qlt_le_dec (fs_acc (final (fsuadd_step c) (fsuadd_init c) g2)) (fs_acc (final (fsuadd_step c) (fsuadd_init c) g1))) as [L|L].
  - pose proof (W c e s g2 g1 h He Hsc Hs H2 H1 H (Qlt_le_weak _ _ L)) as X. cbn zeta in X |- *. lia.
  - exact (W c e s g1 g2 h He Hsc Hs H1 H2 H L).
Qed.

(** ** Dominated prefixes *)
Lemma climbs_mono s l1 l2 n k : (forall p, (1 <= p <= n)%nat -> (l1 p <= l2 p)%Q) -> climbs s l1 n k -> climbs s l2 n k.
Proof.
  intros H (pos & P1 & P2 & P3). exists pos. split; [exact P1|]. split; [exact P2|]. intros i Hi.
  eapply Qle_trans; [apply P3, Hi|]. apply H, P1, Hi.
Qed.
Definition level_of (c : fsuadd_cfg) (e : Z) (s : Q) (cols : list (list Z)) (p : nat) : Q :=
  (inject_Z (total_ones (firstn p cols)) - inject_Z (Z.of_nat p) * mode_offset (fa_mode c) e s)%Q.

Theorem add_dominated : forall c e s cols1 cols2,
  resolved_entry None (fa_entry c) e = e -> resolved_scale None (fa_scale c) e = s -> (0 < s)%Q ->
  Forall bits cols1 -> Forall bits cols2 -> Forall (fun col => zlen col = e) cols1 -> Forall (fun col => zlen col = e) cols2 ->
  length cols1 = length cols2 ->
  (forall p, total_ones (firstn p cols1) <= total_ones (firstn p cols2)) ->
  let free cols := unclamped (qpow2 (fa_depth c - 2)) s
    (fun p => inject_Z (total_ones (firstn p cols)) - inject_Z (Z.of_nat p) * mode_offset (fa_mode c) e s)%Q
    (fun t => ones (firstn t (outs (fsuadd_step c) (fsuadd_init c) cols))) (length cols) in
  free cols1 -> free cols2 ->
  behind (outs (fsuadd_step c) (fsuadd_init c) cols1) (outs (fsuadd_step c) (fsuadd_init c) cols2).
Proof.
  intros c e s cols1 cols2 He Hsc Hs B1 B2 L1 L2 EL Hd free F1 F2 t.
  rewrite <- !BaseLemmas.outs_firstn.
  set (n := length (firstn t cols1)). assert (n2 : length (firstn t cols2) = n) by (unfold n; rewrite !firstn_length, EL; reflexivity).
  assert (K : forall cols, Forall bits cols -> Forall (fun col => zlen col = e) cols -> free cols -> length (firstn t cols) = n ->
    forall k, Z.of_nat k <= ones (outs (fsuadd_step c) (fsuadd_init c) (firstn t cols)) <-> climbs s (level_of c e s cols) n k).
  { intros cols Hb Hl Hf Hn k. pose proof (fsuadd_climbs c e s (firstn t cols) He Hsc Hs (BaseLemmas.Forall_firstn _ _ _ Hb) (BaseLemmas.Forall_firstn _ _ _ Hl)) as X.
    assert (Hnt : (n <= t /\ n <= length cols)%nat) by (rewrite <- Hn, firstn_length; lia).
    rewrite Hn in X. cbv zeta in X. rewrite X.
    - split; apply climbs_ext; intros p Hp; unfold level_of; rewrite firstn_firstn, Nat.min_l by lia; reflexivity.
    - intros u Hu. rewrite firstn_firstn, Nat.min_l by lia. rewrite BaseLemmas.outs_firstn, firstn_firstn, Nat.min_l by lia. apply Hf. lia. }
  pose proof (K cols1 B1 L1 F1 eq_refl) as K1. pose proof (K cols2 B2 L2 F2 n2) as K2.
  set (o1 := ones (outs (fsuadd_step c) (fsuadd_init c) (firstn t cols1))) in *.
  assert (O1 : 0 <= o1) by apply ones_nonneg. rewrite <- (Z2Nat.id o1) by exact O1. apply K2.
  apply (climbs_mono s (level_of c e s cols1)).
  - intros p _. unfold level_of. specialize (Hd p). rewrite Zle_Qle in Hd. lra.
  - apply K1. rewrite Z2Nat.id by exact O1. lia.
Qed.

(** ** Layers *)
Lemma bsgen_bit_mono a b rng t : a <= b -> bsgen_bit a rng t <= bsgen_bit b rng t.
Proof. intros H. unfold bsgen_bit. set (r := nthZ rng (t mod zlen rng)). destruct (Z.gtb_spec a r), (Z.gtb_spec b r); cbn [b2z]; lia. Qed.
Lemma Forall2_nth_le : forall l1 l2, Forall2 Z.le l1 l2 -> forall i, nth i l1 0 <= nth i l2 0.
Proof. induction 1; intros [|i]; cbn [nth]; try lia; apply IHForall2. Qed.
Lemma entry2_mono w1 w2 o i : table_le w1 w2 -> entry2 w1 o i <= entry2 w2 o i.
Proof.
  intros H. unfold entry2. apply Forall2_nth_le. revert o. induction H as [|x y l1 l2 H1 H2 IH]; intros [|o]; cbn [nth]; try exact (Forall2_nil _); [exact H1|apply IH].
Qed.
Lemma zsum_tab_le n f g : (forall i, (i < n)%nat -> f i <= g i) -> zsum (tab n f) <= zsum (tab n g).
Proof.
  induction n as [|n IH]; intros H; [cbn; lia|]. rewrite !tab_S, !zsum_app. cbn [zsum]. specialize (IH (fun i Hi => H i (Nat.lt_lt_succ_r _ _ Hi))).
  pose proof (H n (Nat.lt_succ_diag_r n)). lia.
Qed.
Lemma option_le_entry c1 c2 : pc_in c1 = pc_in c2 -> option_le (pc_bias c1) (pc_bias c2) -> flin_entry c1 = flin_entry c2.
Proof. intros H1 H2. unfold flin_entry. rewrite H1. destruct (pc_bias c1), (pc_bias c2); cbn [option_le] in H2; try contradiction; reflexivity. Qed.

Lemma pc_out_at_mono c1 c2 B h t b o : pc_in c1 = pc_in c2 -> pc_rng c1 = pc_rng c2 -> pc_wtc c1 = pc_wtc c2 ->
  pc_mode c1 = Unipolar -> pc_mode c2 = Unipolar -> table_le (pc_weight c1) (pc_weight c2) -> option_le (pc_bias c1) (pc_bias c2) ->
  Forall (batch_ok B (pc_in c1)) h -> (t < length h)%nat -> (b < B)%nat ->
  pc_out_at c1 h t b o <= pc_out_at c2 h t b o.
Proof.
  intros Ei Er Ew M1 M2 Hw Hb Hh Ht HB. unfold pc_out_at.
  assert (Hbb : pc_bbit c1 o (Z.of_nat t) <= pc_bbit c2 o (Z.of_nat t)).
  { unfold pc_bbit. rewrite Er. destruct (pc_bias c1), (pc_bias c2); cbn [option_le] in Hb; try contradiction; [|lia]. apply bsgen_bit_mono, Forall2_nth_le, Hb. }
  enough (zsum (tab (pc_in c1) (fun i => pc_prod c1 o i (pc_idx1 c1 (firstn t h) b i) (pc_idx0 c1 (firstn t h) b i) (entry2 (nth t h []) b i)))
    <= zsum (tab (pc_in c2) (fun i => pc_prod c2 o i (pc_idx1 c2 (firstn t h) b i) (pc_idx0 c2 (firstn t h) b i) (entry2 (nth t h []) b i)))) by lia.
  rewrite <- Ei. apply zsum_tab_le. intros i Hi. unfold pc_prod. rewrite M1, M2.
  assert (E1 : pc_idx1 c1 (firstn t h) b i = pc_idx1 c2 (firstn t h) b i) by (unfold pc_idx1; rewrite Ew; reflexivity). rewrite E1, Er.
  assert (X : bit (entry2 (nth t h []) b i)).
  { apply (batch_bit B (pc_in c1)); [|exact HB|exact Hi]. apply (Forall_nth_lt _ h t []); assumption. }
  pose proof (bsgen_bit_mono _ _ (pc_rng c2) (pc_idx1 c2 (firstn t h) b i) (entry2_mono _ _ o i Hw)).
  destruct X as [->| ->]; lia.
Qed.

Theorem linear_weights : forall c1 c2 scale depth B h,
  pc_shape c1 -> pc_shape c2 -> pc_in c1 = pc_in c2 -> pc_out c1 = pc_out c2 -> pc_rng c1 = pc_rng c2 -> pc_wtc c1 = pc_wtc c2 ->
  pc_mode c1 = Unipolar -> pc_mode c2 = Unipolar -> table_le (pc_weight c1) (pc_weight c2) -> option_le (pc_bias c1) (pc_bias c2) ->
  (1 <= B)%nat -> Forall (batch_ok B (pc_in c1)) h ->
  (0 < match scale with None => inject_Z (flin_entry c1) | Some q => q end)%Q ->
  exists os1 os2, outputs (run_r (flin_step c1 (flin_acc_cfg c1 scale depth)) (flin_init c1) (no_args h)) = Some os1 /\
    outputs (run_r (flin_step c2 (flin_acc_cfg c2 scale depth)) (flin_init c2) (no_args h)) = Some os2 /\
    length os1 = length h /\ length os2 = length h /\ lanes_behind B (pc_out c1) os1 os2.
Proof.
  intros c1 c2 scale depth B h S1 S2 Ei Eo Er Ew M1 M2 Hw Hb HB Hh Hs.
  destruct (flin_lane_any c1 scale depth B h S1 HB Hh) as (os1 & E1 & L1 & _ & H1).
  assert (Hh2 : Forall (batch_ok B (pc_in c2)) h) by (rewrite <- Ei; exact Hh).
  destruct (flin_lane_any c2 scale depth B h S2 HB Hh2) as (os2 & E2 & L2 & _ & H2).
  exists os1, os2. split; [exact E1|]. split; [exact E2|]. split; [exact L1|]. split; [exact L2|].
  intros b o Hbb Ho t. rewrite (H1 b o Hbb Ho), (H2 b o Hbb) by (rewrite <- Eo; exact Ho).
  unfold layer_off. rewrite <- (option_le_entry c1 c2 Ei Hb), M1, M2.
  set (s := match scale with None => inject_Z (flin_entry c1) | Some q => q end) in *.
  set (cols1 := tab (length h) (fun t0 => [pc_out_at c1 h t0 b o])). set (cols2 := tab (length h) (fun t0 => [pc_out_at c2 h t0 b o])).
  assert (C : columns_le cols1 cols2).
  { unfold cols1, cols2, tab. assert (G : forall t0, In t0 (seq 0 (length h)) -> (t0 < length h)%nat) by (intros t0 Ht0; apply in_seq in Ht0; lia).
    revert G. induction (seq 0 (length h)) as [|t0 l IH]; intros G; [constructor|]. cbn [map]. constructor.
    - cbn [zsum]. pose proof (pc_out_at_mono c1 c2 B h t0 b o Ei Er Ew M1 M2 Hw Hb Hh (G t0 (or_introl eq_refl)) Hbb). lia.
    - apply IH. intros t1 Ht1. apply G. right. exact Ht1. }
  assert (Z0 : (0 - 0 <= inject_Z 0 * s)%Q) by (change (inject_Z 0) with 0%Q; lra).
  pose proof (lane_mono (qpow2 (depth - 2)) s (mode_offset Unipolar (flin_entry c1) s) cols1 cols2 Hs (Qlt_le_weak _ _ (qpow2_pos _)) C
    0%Q 0%Q (Qle_refl 0) 0 (Z.le_refl 0) Z0) as M.
  assert (Lc1 : length cols1 = length h) by apply tab_length. assert (Lc2 : length cols2 = length h) by apply tab_length.
  destruct (Nat.le_gt_cases t (length h)) as [Ht|Ht].
  - apply (M t). rewrite outs_length, Lc1. exact Ht.
  - specialize (M (length h)). rewrite outs_length, Lc1 in M. specialize (M (Nat.le_refl _)).
    rewrite !firstn_all2 in M by (rewrite outs_length; lia). rewrite !firstn_all2 by (rewrite outs_length; lia). lia.
Qed.

Lemma zsum_map_le {A} (f g : A -> Z) l : (forall i, In i l -> f i <= g i) -> zsum (map f l) <= zsum (map g l).
Proof.
  induction l as [|x l IH]; intros H; [cbn; lia|]. cbn [map zsum]. pose proof (H x (or_introl eq_refl)).
  specialize (IH (fun i Hi => H i (or_intror Hi))). lia.
Qed.
Lemma no_args_firstn t h : firstn t (no_args h) = no_args (firstn t h).
Proof. unfold no_args. apply firstn_map. Qed.

Theorem linear_behind : forall l1 l2 B h1 h2, layers_le l1 l2 -> pc_shape (fst l1) -> pc_shape (fst l2) -> (1 <= B)%nat ->
  Forall (batch_ok B (pc_in (fst l1))) h1 -> Forall (batch_ok B (pc_in (fst l1))) h2 -> length h1 = length h2 ->
  lanes_behind B (pc_in (fst l1)) h1 h2 ->
  exists os1 os2,
    outputs (run_r (flin_step (fst l1) (flin_acc_cfg (fst l1) None (snd l1))) (flin_init (fst l1)) (no_args h1)) = Some os1 /\
    outputs (run_r (flin_step (fst l2) (flin_acc_cfg (fst l2) None (snd l2))) (flin_init (fst l2)) (no_args h2)) = Some os2 /\
    length os1 = length h1 /\ length os2 = length h2 /\
    Forall (batch_ok B (pc_out (fst l1))) os1 /\ Forall (batch_ok B (pc_out (fst l1))) os2 /\
    lanes_behind B (pc_out (fst l1)) os1 os2.
Proof.
  intros [c1 d1] [c2 d2] B h1 h2 (Ei & Eo & Er & Hr & M1 & M2 & W1 & W2 & Hw & Hb & He & Hd1 & Hd2) S1 S2 HB H1 H2 EL Hx.
  cbn [fst snd] in *. pose proof (option_le_entry c1 c2 Ei Hb) as Ee.
  assert (H2' : Forall (batch_ok B (pc_in c2)) h2) by (rewrite <- Ei; exact H2).
  assert (Hr2 : rng_ok c2) by (unfold rng_ok; rewrite <- Er; exact Hr). assert (He2 : 0 < flin_entry c2) by (rewrite <- Ee; exact He).
  destruct (flin_rate c1 d1 B h1 S1 Hr W1 HB He Hd1 H1) as (os1 & E1 & L1 & Sh1 & _).
  destruct (flin_rate c2 d2 B h2 S2 Hr2 W2 HB He2 Hd2 H2') as (os2 & E2 & L2 & Sh2 & _).
  exists os1, os2. split; [exact E1|]. split; [exact E2|]. split; [exact L1|]. split; [exact L2|]. split; [exact Sh1|]. split; [rewrite Eo; exact Sh2|].
  intros b o Hbb Ho t.
  destruct (flin_rate c1 d1 B (firstn t h1) S1 Hr W1 HB He Hd1 (BaseLemmas.Forall_firstn _ _ _ H1)) as (p1 & F1 & _ & _ & G1).
  destruct (flin_rate c2 d2 B (firstn t h2) S2 Hr2 W2 HB He2 Hd2 (BaseLemmas.Forall_firstn _ _ _ H2')) as (p2 & F2 & _ & _ & G2).
  rewrite <- no_args_firstn in F1, F2. rewrite (run_r_firstn _ t _ _ _ E1) in F1. rewrite (run_r_firstn _ t _ _ _ E2) in F2.
  injection F1 as <-. injection F2 as <-. specialize (G1 b o Hbb Ho). assert (Ho2 : (o < pc_out c2)%nat) by (rewrite <- Eo; exact Ho). specialize (G2 b o Hbb Ho2).
  rewrite LinearProof.lane_firstn in G1, G2. rewrite G1, G2. clear G1 G2.
  assert (Ent : forall c, Z.of_nat (pc_in c) + match pc_bias c with None => 0 | Some _ => 1 end = flin_entry c).
  { intros c. unfold flin_entry. destruct (pc_bias c); reflexivity. }
  rewrite !Ent, <- Ee. apply Z.div_le_mono; [exact He|].
  assert (Lt : length (firstn t h1) = length (firstn t h2)) by (rewrite !firstn_length, EL; reflexivity).
  apply Z.add_le_mono.
  - rewrite M1, M2, <- Ei, <- Er. apply zsum_map_le. intros i Hi. apply in_seq in Hi.
    assert (B1 : bits (lane h1 b i)) by (apply (LinearProof.lane_bits B (pc_in c1)); [exact H1|exact Hbb|lia]).
    assert (B2 : bits (lane h2 b i)) by (apply (LinearProof.lane_bits B (pc_in c1)); [exact H2|exact Hbb|lia]).
    rewrite !LinearProof.lane_firstn.
    change (ones (mul_out Unipolar (entry2 (pc_weight c1) o i) (pc_rng c1) (firstn t (lane h1 b i))) <= ones (mul_out Unipolar (entry2 (pc_weight c2) o i) (pc_rng c1) (firstn t (lane h2 b i)))).
    rewrite (proj2 (proj2 (mul_static_uni _ _ _ Hr (BaseLemmas.Forall_firstn _ t _ B1)))), (proj2 (proj2 (mul_static_uni _ _ _ Hr (BaseLemmas.Forall_firstn _ t _ B2)))).
    eapply Z.le_trans; [apply below_mono_B, (entry2_mono _ _ o i Hw)|]. apply below_mono_n. apply Z2Nat.inj_le; try apply ones_nonneg.
    apply Hx; [exact Hbb|lia].
  - rewrite <- Er, Lt. destruct (pc_bias c1), (pc_bias c2); cbn [option_le] in Hb; try contradiction; [|lia].
    rewrite <- !below_stream by exact Hr. apply below_mono_B, Forall2_nth_le, Hb.
Qed.

Theorem net_behind : forall ls1 ls2, Forall2 layers_le ls1 ls2 -> forall n B h1 h2, fitted n ls1 -> fitted n ls2 -> (1 <= B)%nat ->
  Forall (batch_ok B n) h1 -> Forall (batch_ok B n) h2 -> length h1 = length h2 -> lanes_behind B n h1 h2 ->
  exists os1 os2,
    outputs (run_r (net_step (map plain ls1)) (net_init (map plain ls1)) h1) = Some os1 /\
    outputs (run_r (net_step (map plain ls2)) (net_init (map plain ls2)) h2) = Some os2 /\
    length os1 = length h1 /\ length os2 = length h2 /\
    lanes_behind B (width_out n ls1) os1 os2.
Proof.
  induction 1 as [|l1 l2 ls1 ls2 Hl Hls IH]; intros n B h1 h2 F1 F2 HB H1 H2 EL Hx.
  - exists h1, h2. cbn [map]. split; [apply net_nil_run|]. split; [apply net_nil_run|]. split; [reflexivity|]. split; [reflexivity|]. exact Hx.
  - cbn [fitted] in F1, F2. destruct F1 as (S1 & I1 & F1), F2 as (S2 & I2 & F2). subst n.
    destruct (linear_behind l1 l2 B h1 h2 Hl S1 S2 HB H1 H2 EL Hx) as (m1 & m2 & E1 & E2 & L1 & L2 & Sh1 & Sh2 & Hm).
    assert (Eo : pc_out (fst l1) = pc_out (fst l2)) by apply Hl. rewrite <- Eo in F2.
    destruct (IH _ B m1 m2 F1 F2 HB Sh1 Sh2 ltac:(congruence) Hm) as (os1 & os2 & R1 & R2 & K1 & K2 & Ho).
    exists os1, os2. cbn [map]. unfold net_init. cbn [map]. split; [exact (net_run _ _ _ _ _ _ _ _ E1 R1)|]. split; [exact (net_run _ _ _ _ _ _ _ _ E2 R2)|].
    split; [congruence|]. split; [congruence|]. exact Ho.
Qed.
