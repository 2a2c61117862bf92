(** How far wrong weights reach. *)
Require Import Verif.BaseLemmas Verif.WeightSpec Verif.AddModel Verif.AddProof Verif.GenModel Verif.GenProof Verif.KernelModel Verif.KernelProof Verif.LinearModel Verif.LinearProof Verif.ChainProof Verif.ProgProof Verif.HubProof Verif.NetSpec Verif.NetProof Verif.MonoProof Verif.FaultProof Verif.SymProof.
Open Scope Z_scope.

Lemma periods_mono w a b : a <= b -> periods w a <= periods w b.
Proof. intros H. unfold periods. pose proof (p2_pos w). apply Z.div_le_mono; lia. Qed.
Lemma periods_nonneg w a : 0 <= a -> 0 <= periods w a.
Proof. intros H. unfold periods. pose proof (p2_pos w). apply Z.div_pos; lia. Qed.
Lemma periods_cover w a : a <= periods w a * p2 w.
Proof.
  unfold periods. pose proof (p2_pos w). pose proof (Z.div_mod (a + p2 w - 1) (p2 w) ltac:(lia)). pose proof (Z.mod_pos_bound (a + p2 w - 1) (p2 w) ltac:(lia)). nia.
Qed.
Lemma periods_add w a b : periods w a + periods w b <= periods w (a + b) + 1.
Proof.
  unfold periods. pose proof (p2_pos w) as P. apply Z.le_trans with ((a + b + p2 w - 1 + p2 w) / p2 w).
  - apply Z.div_le_lower_bound; [lia|]. pose proof (Z.mul_div_le (a + p2 w - 1) (p2 w) P). pose proof (Z.mul_div_le (b + p2 w - 1) (p2 w) P).
    pose proof (Z.div_mod (a + p2 w - 1) (p2 w) ltac:(lia)) as E1. pose proof (Z.div_mod (b + p2 w - 1) (p2 w) ltac:(lia)) as E2.
    pose proof (Z.mod_pos_bound (a + p2 w - 1) (p2 w) P). pose proof (Z.mod_pos_bound (b + p2 w - 1) (p2 w) P). lia.
  - replace (a + b + p2 w - 1 + p2 w) with (a + b + p2 w - 1 + 1 * p2 w) by lia. rewrite Z.div_add by lia. lia.
Qed.
Lemma exposure_reach m w xs T : bits xs -> zlen xs <= T -> exposure m w xs <= reach m w T.
Proof.
  intros Hx HT. unfold exposure, reach. pose proof (ones_zeros xs Hx). pose proof (ones_nonneg xs). pose proof (zeros_nonneg xs).
  destruct m; [pose proof (periods_mono w (ones xs) T); lia|].
  pose proof (periods_add w (ones xs) (zeros xs)). pose proof (periods_mono w (ones xs + zeros xs) T). lia.
Qed.
Lemma exposure_nonneg m w xs : 0 <= exposure m w xs.
Proof. unfold exposure. pose proof (periods_nonneg w _ (ones_nonneg xs)). pose proof (periods_nonneg w _ (zeros_nonneg xs)). destruct m; lia. Qed.

Lemma below_off_step l B B' a b : B <= B' -> (a <= b)%nat -> below l B' a - below l B a <= below l B' b - below l B b.
Proof.
  intros HB. induction 1 as [|b _ IH]; [lia|]. rewrite !below_S. destruct (Z.ltb_spec (cyc l b) B), (Z.ltb_spec (cyc l b) B'); cbn [b2z]; lia.
Qed.
Lemma below_off w l B B' n : perm_seq w l -> 0 <= n -> Z.abs (below l B (Z.to_nat n) - below l B' (Z.to_nat n)) <= Z.abs (B - B') * periods w n.
Proof.
  intros P Hn. assert (G : forall B B', B <= B' -> 0 <= below l B' (Z.to_nat n) - below l B (Z.to_nat n) <= (B' - B) * periods w n).
  { clear B B'. intros B B' H. split; [pose proof (below_mono_B l B B' (Z.to_nat n) H); lia|].
    pose proof (periods_cover w n) as C. pose proof (periods_nonneg w n Hn) as Q. set (q := periods w n) in *.
    eapply Z.le_trans; [apply (below_off_step l B B' (Z.to_nat n) (Z.to_nat q * 2 ^ w)); [exact H|]|].
    - apply Nat2Z.inj_le. rewrite Nat2Z.inj_mul, !Z2Nat.id by lia. rewrite Nat2Z.inj_pow. unfold p2 in C. exact C.
    - rewrite !below_periods by exact P. rewrite Z2Nat.id by exact Q. pose proof (p2_pos w).
      assert (zclamp 0 (p2 w) B' - zclamp 0 (p2 w) B <= B' - B) by (unfold zclamp; lia). nia. }
  destruct (Z.le_ge_cases B B') as [C|C]; [pose proof (G B B' C)|pose proof (G B' B C)]; [rewrite Z.abs_neq by lia; rewrite (Z.abs_neq (B - B')) by lia|rewrite Z.abs_eq by lia; rewrite (Z.abs_eq (B - B')) by lia]; lia.
Qed.

Theorem gen_off : forall w rng B B' n, perm_seq w rng ->
  Z.abs (ones (bsgen_stream B rng 0 n) - ones (bsgen_stream B' rng 0 n)) <= Z.abs (B - B') * periods w (Z.of_nat n).
Proof.
  intros w rng B B' n P. pose proof (perm_seq_len_pos w rng P) as L. rewrite <- !below_stream by exact L.
  pose proof (below_off w rng B B' (Z.of_nat n) P ltac:(lia)) as H. rewrite Nat2Z.id in H. exact H.
Qed.

Lemma mul_off_total m w rng B B' xs : perm_seq w rng -> bits xs ->
  Z.abs (ones (outs (fsumul_static_step m B rng) fsumul_static_init xs) - ones (outs (fsumul_static_step m B' rng) fsumul_static_init xs)) <=
  Z.abs (B - B') * exposure m w xs.
Proof.
  intros P Hx. pose proof (perm_seq_len_pos w rng P) as L.
  rewrite (proj2 (mul_static_count m B rng xs L Hx)), (proj2 (mul_static_count m B' rng xs L Hx)). unfold exposure.
  pose proof (below_off w rng B B' (ones xs) P (ones_nonneg xs)) as H1. pose proof (below_off w rng B B' (zeros xs) P (zeros_nonneg xs)) as H0.
  destruct m; [rewrite !Z.add_0_r; exact H1|]. rewrite Z.mul_add_distr_l. lia.
Qed.
Theorem mul_off : forall m w rng B B' xs t, perm_seq w rng -> bits xs ->
  Z.abs (ones (firstn t (outs (fsumul_static_step m B rng) fsumul_static_init xs)) - ones (firstn t (outs (fsumul_static_step m B' rng) fsumul_static_init xs))) <=
  Z.abs (B - B') * exposure m w (firstn t xs).
Proof. intros m w rng B B' xs t P Hx. rewrite <- !BaseLemmas.outs_firstn. apply mul_off_total; [exact P|apply BaseLemmas.Forall_firstn, Hx]. Qed.
Theorem mul_off_attained : forall w rng B B' q, perm_seq w rng -> 0 <= B <= p2 w -> 0 <= B' <= p2 w ->
  Z.abs (ones (outs (fsumul_static_step Unipolar B rng) fsumul_static_init (repeat 1 (q * 2 ^ w))) -
         ones (outs (fsumul_static_step Unipolar B' rng) fsumul_static_init (repeat 1 (q * 2 ^ w)))) = Z.abs (B - B') * Z.of_nat q /\
  exposure Unipolar w (repeat 1 (q * 2 ^ w)) = Z.of_nat q.
Proof.
  intros w rng B B' q P HB HB'. pose proof (perm_seq_len_pos w rng P) as L.
  assert (Hx : bits (repeat 1 (q * 2 ^ w))) by (apply Forall_forall; intros x Hin; apply repeat_spec in Hin; subst x; right; reflexivity).
  assert (O : ones (repeat 1 (q * 2 ^ w)) = Z.of_nat (q * 2 ^ w)) by (generalize (q * 2 ^ w)%nat; induction n as [|n IH]; [reflexivity|]; change (repeat 1 (S n)) with ([1] ++ repeat 1 n); rewrite ones_app, IH; change (ones [1]) with 1; lia).
  split.
  - rewrite (proj2 (mul_static_count Unipolar B rng _ L Hx)), (proj2 (mul_static_count Unipolar B' rng _ L Hx)), O, Nat2Z.id.
    rewrite !below_periods by exact P. unfold zclamp. rewrite !Z.add_0_r. nia.
  - unfold exposure, periods. rewrite O, Nat2Z.inj_mul, Nat2Z.inj_pow. change (Z.of_nat 2) with 2. fold (p2 w). pose proof (p2_pos w).
    rewrite Z.add_0_r. replace (Z.of_nat q * p2 w + p2 w - 1) with (p2 w - 1 + Z.of_nat q * p2 w) by lia. rewrite Z.div_add by lia. rewrite Z.div_small by lia. lia.
Qed.

Theorem linear_off : forall l1 l2 m w B h, sound l1 -> sound l2 -> alike (fst l1) (fst l2) -> pc_mode (fst l1) = m -> perm_seq w (pc_rng (fst l1)) ->
  (1 <= B)%nat -> Forall (batch_ok B (pc_in (fst l1))) h ->
  exists os1 os2,
    outputs (run_r (flin_step (fst l1) (flin_acc_cfg (fst l1) None (snd l1))) (flin_init (fst l1)) (no_args h)) = Some os1 /\
    outputs (run_r (flin_step (fst l2) (flin_acc_cfg (fst l2) None (snd l2))) (flin_init (fst l2)) (no_args h)) = Some os2 /\
    length os1 = length h /\ length os2 = length h /\
    Forall (batch_ok B (pc_out (fst l1))) os1 /\ Forall (batch_ok B (pc_out (fst l1))) os2 /\
    forall b o t, (b < B)%nat -> (o < pc_out (fst l1))%nat -> (t <= length h)%nat ->
      Z.abs (ones (firstn t (lane os1 b o)) - ones (firstn t (lane os2 b o))) <=
      (zsum (map (fun i => Z.abs (entry2 (pc_weight (fst l1)) o i - entry2 (pc_weight (fst l2)) o i) * exposure m w (firstn t (lane h b i))) (seq 0 (pc_in (fst l1)))) +
       bias_off (fst l1) (fst l2) o * periods w (Z.of_nat t) + flin_entry (fst l1) - 1) / flin_entry (fst l1).
Proof.
  intros [c1 d1] [c2 d2] m w B h (S1 & Hr & W1 & He & Hd1) (S2 & Hr2 & W2 & He2 & Hd2) (Em & Er & Ei & Eo & Eb) Hm P HB H1. cbn [fst snd] in *.
  assert (H2 : Forall (batch_ok B (pc_in c2)) h) by (rewrite <- Ei; exact H1).
  destruct (flin_rate c1 d1 B h S1 Hr W1 HB He Hd1 H1) as (os1 & E1 & L1 & Sh1 & _).
  destruct (flin_rate c2 d2 B h S2 Hr2 W2 HB He2 Hd2 H2) as (os2 & E2 & L2 & Sh2 & _).
  exists os1, os2. split; [exact E1|]. split; [exact E2|]. split; [exact L1|]. split; [exact L2|]. split; [exact Sh1|]. split; [rewrite Eo; exact Sh2|].
  intros b o t Hbb Ho Ht.
  destruct (flin_rate c1 d1 B (firstn t h) S1 Hr W1 HB He Hd1 (BaseLemmas.Forall_firstn _ _ _ H1)) as (p1 & F1 & _ & _ & G1).
  destruct (flin_rate c2 d2 B (firstn t h) S2 Hr2 W2 HB He2 Hd2 (BaseLemmas.Forall_firstn _ _ _ H2)) as (p2' & F2 & _ & _ & G2).
  rewrite <- no_args_firstn in F1, F2. rewrite (run_r_firstn _ t _ _ _ E1) in F1. rewrite (run_r_firstn _ t _ _ _ E2) in F2.
  injection F1 as <-. injection F2 as <-. specialize (G1 b o Hbb Ho). assert (Ho2 : (o < pc_out c2)%nat) by (rewrite <- Eo; exact Ho). specialize (G2 b o Hbb Ho2).
  rewrite LinearProof.lane_firstn in G1, G2. rewrite G1, G2. clear G1 G2.
  assert (Ent : forall c, Z.of_nat (pc_in c) + match pc_bias c with None => 0 | Some _ => 1 end = flin_entry c).
  { intros c. unfold flin_entry. destruct (pc_bias c); reflexivity. }
  assert (Ee : flin_entry c1 = flin_entry c2) by (unfold flin_entry; rewrite Ei; destruct (pc_bias c1), (pc_bias c2); try contradiction; reflexivity).
  rewrite !Ent, <- Ee. apply div_gap; [exact He|]. rewrite firstn_length, Nat.min_l by exact Ht.
  rewrite <- Em, Hm, <- Ei, <- Er.
  match goal with |- Z.abs (?x + ?u - (?y + ?v)) <= _ => assert (Hs : Z.abs (x - y) <= zsum (map (fun i => Z.abs (entry2 (pc_weight c1) o i - entry2 (pc_weight c2) o i) * exposure m w (firstn t (lane h b i))) (seq 0 (pc_in c1))));
    [|assert (Hb : Z.abs (u - v) <= bias_off c1 c2 o * periods w (Z.of_nat t)); [|lia]] end.
  - apply zsum_abs_le. intros i Hi. apply in_seq in Hi. rewrite !LinearProof.lane_firstn. apply mul_off_total; [exact P|].
    apply BaseLemmas.Forall_firstn. apply (LinearProof.lane_bits B (pc_in c1)); [exact H1|exact Hbb|lia].
  - unfold bias_off. destruct (pc_bias c1), (pc_bias c2); try contradiction; [|lia]. apply gen_off, P.
Qed.

Theorem net_off : forall m w k ls1 ls2, Forall2 (layers_off m w k) ls1 ls2 -> 0 <= k -> forall n B h1 h2 j, fitted n ls1 -> fitted n ls2 -> (1 <= B)%nat -> 0 <= j ->
  Forall (batch_ok B n) h1 -> Forall (batch_ok B n) h2 -> length h1 = length h2 -> lanes_within B n (fun _ _ => j) h1 h2 ->
  exists os1 os2,
    outputs (run_r (net_step (map plain ls1)) (net_init (map plain ls1)) h1) = Some os1 /\
    outputs (run_r (net_step (map plain ls2)) (net_init (map plain ls2)) h2) = Some os2 /\
    length os1 = length h1 /\ length os2 = length h2 /\
    lanes_within B (width_out n ls1) (fun _ _ => j + zlen ls1 * (k * reach m w (Z.of_nat (length h1)))) os1 os2.
Proof.
  intros m w k ls1 ls2 HF Hk. induction HF as [|l1 l2 ls1 ls2 (Sd1 & Sd2 & Hm & P & Al & Hw & Hbias) _ IH]; intros n B h1 h2 j F1 F2 HB Hj H1 H2 EL Hx.
  - exists h1, h2. cbn [map]. split; [apply net_nil_run|]. split; [apply net_nil_run|]. split; [reflexivity|]. split; [reflexivity|].
    change (zlen []) with 0. rewrite Z.mul_0_l. intros b i Hb Hi t. rewrite Z.add_0_r. exact (Hx b i Hb Hi t).
  - cbn [fitted] in F1, F2. destruct F1 as (S1 & I1 & F1). destruct F2 as (S2 & I2 & F2). assert (Al' := Al). destruct Al' as (Em & Er & Ei & Eo & Eb). subst n.
    destruct (linear_off l1 l2 m w B h1 Sd1 Sd2 Al Hm P HB H1) as (m1 & m1' & E1 & E1' & L1 & L1' & Sh1 & Sh1' & Hd).
    destruct (linear_faults l2 B h1 h2 (fun _ _ => j) Sd2 HB ltac:(rewrite I2; exact H1) ltac:(rewrite I2; exact H2) EL ltac:(rewrite I2; exact Hx))
      as (m3 & m2 & E3 & E2 & L3 & L2 & _ & Sh2 & Hm2). rewrite E1' in E3. injection E3 as <-.
    set (R := k * reach m w (Z.of_nat (length h1))).
    assert (HR : 0 <= reach m w (Z.of_nat (length h1))) by (unfold reach; pose proof (periods_nonneg w (Z.of_nat (length h1)) ltac:(lia)); destruct m; lia).
    assert (Hm' : lanes_within B (pc_out (fst l1)) (fun _ _ => j + R) m1 m2).
    { intros b o Hbb Ho. rewrite Z.add_comm. apply (within_trans R j _ (lane m1' b o)).
      - apply within_all; [rewrite !LinearProof.lane_length; congruence|]. intros t Ht. rewrite LinearProof.lane_length, L1 in Ht.
        eapply Z.le_trans; [apply Hd; assumption|]. destruct Sd1 as (_ & _ & _ & He & _).
        apply Z.lt_succ_r. apply Z.div_lt_upper_bound; [exact He|].
        assert (A : zsum (map (fun i => Z.abs (entry2 (pc_weight (fst l1)) o i - entry2 (pc_weight (fst l2)) o i) * exposure m w (firstn t (lane h1 b i))) (seq 0 (pc_in (fst l1)))) <= Z.of_nat (pc_in (fst l1)) * R).
        { rewrite <- zsum_const. apply zsum_map_le. intros i Hi. apply in_seq in Hi. unfold R.
          apply Z.mul_le_mono_nonneg; [lia|apply Hw; [exact Ho|lia]|apply exposure_nonneg|]. apply exposure_reach.
          - apply BaseLemmas.Forall_firstn. apply (LinearProof.lane_bits B (pc_in (fst l1))); [exact H1|exact Hbb|lia].
          - unfold zlen. rewrite firstn_length, LinearProof.lane_length. lia. }
        assert (Bb : bias_off (fst l1) (fst l2) o * periods w (Z.of_nat t) <= match pc_bias (fst l1) with None => 0 | Some _ => R end).
        { specialize (Hbias o Ho). unfold bias_off in *. destruct (pc_bias (fst l1)), (pc_bias (fst l2)); try contradiction; [|lia]. unfold R.
          apply Z.mul_le_mono_nonneg; [lia|exact Hbias|apply periods_nonneg; lia|]. pose proof (periods_mono w (Z.of_nat t) (Z.of_nat (length h1)) ltac:(lia)).
          unfold reach. destruct m; lia. }
        unfold flin_entry in *. destruct (pc_bias (fst l1)); nia.
      - intros t. eapply Z.le_trans; [apply (Hm2 b o Hbb ltac:(rewrite <- Eo; exact Ho) t)|]. rewrite zsum_const. destruct Sd2 as (_ & _ & _ & He & _).
        apply Z.lt_succ_r. apply Z.div_lt_upper_bound; [exact He|]. unfold flin_entry in *. destruct (pc_bias (fst l2)); nia. }
    destruct (IH (pc_out (fst l1)) B m1 m2 (j + R) F1 ltac:(rewrite Eo; exact F2) HB ltac:(unfold R; nia) Sh1 ltac:(rewrite Eo; exact Sh2) ltac:(congruence) Hm') as (os1 & os2 & R1 & R2 & K1 & K2 & Ho).
    exists os1, os2. cbn [map]. unfold net_init. cbn [map]. split; [exact (net_run _ _ _ _ _ _ _ _ E1 R1)|]. split; [exact (net_run _ _ _ _ _ _ _ _ E2 R2)|].
    split; [congruence|]. split; [congruence|].
    intros b o Hb Hoo t. eapply Z.le_trans; [exact (Ho b o Hb Hoo t)|]. rewrite L1. fold R. unfold zlen. cbn [length]. lia.
Qed.
