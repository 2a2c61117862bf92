(** Temporally coded layers: wrong bits, wrong weights, negation. *)
Require Import Verif.BaseLemmas Verif.TempoSpec Verif.AddModel Verif.AddProof Verif.GenModel Verif.GenProof Verif.KernelModel Verif.KernelProof Verif.LinearModel Verif.LinearProof Verif.ChainProof Verif.ProgProof Verif.HubProof Verif.NetSpec Verif.NetProof Verif.MonoProof Verif.FaultProof Verif.SymProof Verif.WeightProof.
Open Scope Z_scope.

Definition tprod (m : mode) (B : Z) (rng : list Z) (xs : list Z) (n : nat) : Z :=
  zsum (map (fun t => product_bit m (nth t xs 0) (bsgen_bit B rng (Z.of_nat t))) (seq 0 n)).

Lemma flips_tab : forall xs ys, length xs = length ys -> zsum (map (fun t => b2z (negb (nth t xs 0 =? nth t ys 0))) (seq 0 (length xs))) = flips xs ys.
Proof.
  induction xs as [|x xs IH]; intros [|y ys] L; try discriminate; [reflexivity|]. cbn [length seq map zsum]. rewrite flips_cons. cbn [nth]. f_equal.
  rewrite <- seq_shift, map_map. cbn [nth]. apply IH. cbn in L. lia.
Qed.
Lemma nth_bit xs t : bits xs -> bit (nth t xs 0).
Proof. intros Hx. destruct (Nat.lt_ge_cases t (length xs)) as [H|H]; [exact (Forall_nth_lt _ _ t 0 Hx H)|]. rewrite nth_overflow by exact H. left. reflexivity. Qed.
Lemma product_bit_flip m x y w : bit x -> bit y -> bit w -> Z.abs (product_bit m x w - product_bit m y w) <= b2z (negb (x =? y)).
Proof. intros [-> | ->] [-> | ->] [-> | ->]; destruct m; vm_compute; discriminate. Qed.
Lemma product_bit_weight m x w w' : bit x -> bit w -> bit w' -> Z.abs (product_bit m x w - product_bit m x w') <= Z.abs (w - w').
Proof. intros [-> | ->] [-> | ->] [-> | ->]; destruct m; vm_compute; discriminate. Qed.

Lemma tprod_flips m B rng xs ys : bits xs -> bits ys -> length xs = length ys -> Z.abs (tprod m B rng xs (length xs) - tprod m B rng ys (length xs)) <= flips xs ys.
Proof.
  intros Hx Hy L. rewrite <- flips_tab by exact L. unfold tprod. apply zsum_abs_le. intros t _. apply product_bit_flip; try (apply nth_bit; assumption). apply bsgen_bit_bit.
Qed.
Lemma zsum_stream B rng n : zsum (map (fun t => bsgen_bit B rng (Z.of_nat t)) (seq 0 n)) = ones (bsgen_stream B rng 0 n).
Proof.
  induction n as [|n IH]; [reflexivity|]. rewrite seq_S, map_app, zsum_app, IH. replace (S n) with (n + 1)%nat by lia. rewrite bsgen_stream_app, ones_app. f_equal.
  unfold bsgen_stream. cbn [seq map zsum]. replace (0 + Z.of_nat n + Z.of_nat 0) with (Z.of_nat (0 + n)) by lia. destruct (bsgen_bit_bit B rng (Z.of_nat (0 + n))) as [-> | ->]; reflexivity.
Qed.
Lemma tprod_off m w B B' rng xs n : perm_seq w rng -> bits xs -> Z.abs (tprod m B rng xs n - tprod m B' rng xs n) <= Z.abs (B - B') * periods w (Z.of_nat n).
Proof.
  assert (G : forall B B', B <= B' -> perm_seq w rng -> bits xs -> Z.abs (tprod m B rng xs n - tprod m B' rng xs n) <= Z.abs (B - B') * periods w (Z.of_nat n)).
  { clear B B'. intros B B' HB P Hx. eapply Z.le_trans; [|apply (gen_off w rng B B' n P)]. rewrite <- !zsum_stream. unfold tprod.
    eapply Z.le_trans; [apply (zsum_abs_le _ _ (fun t => bsgen_bit B' rng (Z.of_nat t) - bsgen_bit B rng (Z.of_nat t)))|].
    - intros t _. eapply Z.le_trans; [apply product_bit_weight; first [apply nth_bit; assumption|apply bsgen_bit_bit]|]. pose proof (bsgen_bit_mono B B' rng (Z.of_nat t) HB). lia.
    - generalize (seq 0 n). intros l. induction l as [|t l IH]; [reflexivity|]. cbn [map zsum]. pose proof (bsgen_bit_mono B B' rng (Z.of_nat t) HB).
      assert (M : zsum (map (fun t => bsgen_bit B rng (Z.of_nat t)) l) <= zsum (map (fun t => bsgen_bit B' rng (Z.of_nat t)) l)).
      { apply zsum_map_le. intros i _. apply bsgen_bit_mono, HB. }
      lia. }
  intros P Hx. destruct (Z.le_ge_cases B B') as [H|H]; [apply G; assumption|]. rewrite <- Z.abs_opp, Z.opp_sub_distr, Z.add_comm, Z.add_opp_r.
  rewrite <- (Z.abs_opp (B - B')), Z.opp_sub_distr, Z.add_comm, Z.add_opp_r. apply G; assumption.
Qed.
Lemma tprod_negated B rng xs : bits xs -> tprod Bipolar B rng (negated xs) (length xs) = zlen xs - tprod Bipolar B rng xs (length xs).
Proof.
  intros Hx. unfold tprod. assert (G : forall n, (n <= length xs)%nat -> zsum (map (fun t => product_bit Bipolar (nth t (negated xs) 0) (bsgen_bit B rng (Z.of_nat t))) (seq 0 n)) =
    Z.of_nat n - zsum (map (fun t => product_bit Bipolar (nth t xs 0) (bsgen_bit B rng (Z.of_nat t))) (seq 0 n))).
  { induction n as [|n IH]; intros Hn; [reflexivity|]. rewrite seq_S, !map_app, !zsum_app, IH by lia. cbn [map zsum].
    replace (nth (0 + n) (negated xs) 0) with (1 - nth (0 + n) xs 0).
    - assert (E : forall x b, bit x -> bit b -> product_bit Bipolar (1 - x) b = 1 - product_bit Bipolar x b) by (intros x b [-> | ->] [-> | ->]; reflexivity).
      rewrite E; [lia|apply nth_bit, Hx|apply bsgen_bit_bit].
    - unfold negated. rewrite (nth_indep (map _ xs) 0 ((fun x => 1 - x) 0)) by (rewrite map_length; cbn; lia). rewrite map_nth. reflexivity. }
  apply G. lia.
Qed.

Lemma timed_prefix c d B h : timed (c, d) -> (1 <= B)%nat -> Forall (batch_ok B (pc_in c)) h ->
  exists os, outputs (run_r (flin_step c (flin_acc_cfg c None d)) (flin_init c) (no_args h)) = Some os /\ length os = length h /\ Forall (batch_ok B (pc_out c)) os /\
    forall b o t, (b < B)%nat -> (o < pc_out c)%nat -> (t <= length h)%nat -> ones (firstn t (lane os b o)) =
      (zsum (map (fun i => tprod (pc_mode c) (entry2 (pc_weight c) o i) (pc_rng c) (firstn t (lane h b i)) t) (seq 0 (pc_in c)))
       + match pc_bias c with None => 0 | Some bs => ones (bsgen_stream (nth o bs 0) (pc_rng c) 0 t) end) / flin_entry c.
Proof.
  intros (Hs & Hw & He & Hd) HB Hh. cbn [fst snd] in *.
  destruct (flin_temporal c d B h Hs Hw HB He Hd Hh) as (os & E & L & Sh & _).
  exists os. split; [exact E|]. split; [exact L|]. split; [exact Sh|]. intros b o t Hb Ho Ht.
  destruct (flin_temporal c d B (firstn t h) Hs Hw HB He Hd (BaseLemmas.Forall_firstn _ _ _ Hh)) as (p & F & _ & _ & G).
  rewrite <- no_args_firstn in F. rewrite (run_r_firstn _ t _ _ _ E) in F. injection F as <-. specialize (G b o Hb Ho).
  rewrite LinearProof.lane_firstn in G. rewrite G. rewrite firstn_length, Nat.min_l by exact Ht.
  assert (Ent : Z.of_nat (pc_in c) + match pc_bias c with None => 0 | Some _ => 1 end = flin_entry c) by (unfold flin_entry; destruct (pc_bias c); reflexivity).
  rewrite Ent. do 3 f_equal. apply map_ext. intros i. rewrite LinearProof.lane_firstn. reflexivity.
Qed.

Theorem timed_flips : forall l B h1 h2, timed l -> (1 <= B)%nat ->
  Forall (batch_ok B (pc_in (fst l))) h1 -> Forall (batch_ok B (pc_in (fst l))) h2 -> length h1 = length h2 ->
  exists os1 os2,
    outputs (run_r (flin_step (fst l) (flin_acc_cfg (fst l) None (snd l))) (flin_init (fst l)) (no_args h1)) = Some os1 /\
    outputs (run_r (flin_step (fst l) (flin_acc_cfg (fst l) None (snd l))) (flin_init (fst l)) (no_args h2)) = Some os2 /\
    length os1 = length h1 /\ length os2 = length h2 /\
    Forall (batch_ok B (pc_out (fst l))) os1 /\ Forall (batch_ok B (pc_out (fst l))) os2 /\
    forall b o t, (b < B)%nat -> (o < pc_out (fst l))%nat -> (t <= length h1)%nat ->
      Z.abs (ones (firstn t (lane os1 b o)) - ones (firstn t (lane os2 b o))) <=
      (zsum (map (fun i => flips (firstn t (lane h1 b i)) (firstn t (lane h2 b i))) (seq 0 (pc_in (fst l)))) + flin_entry (fst l) - 1) / flin_entry (fst l).
Proof.
  intros [c d] B h1 h2 T HB H1 H2 EL. assert (He := T). destruct He as (_ & _ & He & _). cbn [fst snd] in *.
  destruct (timed_prefix c d B h1 T HB H1) as (os1 & E1 & L1 & Sh1 & G1). destruct (timed_prefix c d B h2 T HB H2) as (os2 & E2 & L2 & Sh2 & G2).
  exists os1, os2. split; [exact E1|]. split; [exact E2|]. split; [exact L1|]. split; [exact L2|]. split; [exact Sh1|]. split; [exact Sh2|].
  intros b o t Hb Ho Ht. rewrite G1, G2 by (try assumption; lia). apply div_gap; [exact He|].
  match goal with |- Z.abs (?x + ?u - (?y + ?u)) <= _ => replace (x + u - (y + u)) with (x - y) by lia end.
  apply zsum_abs_le. intros i Hi. apply in_seq in Hi.
  assert (Lf : forall h, length h = length h1 -> length (firstn t (lane h b i)) = t) by (intros h E; rewrite firstn_length, LinearProof.lane_length; lia).
  assert (K := tprod_flips (pc_mode c) (entry2 (pc_weight c) o i) (pc_rng c) (firstn t (lane h1 b i)) (firstn t (lane h2 b i))). rewrite !Lf in K by congruence.
  apply K; [| |reflexivity]; apply BaseLemmas.Forall_firstn; apply (LinearProof.lane_bits B (pc_in c)); try assumption; lia.
Qed.

Theorem timed_off : forall l1 l2 w B h, timed l1 -> timed l2 -> alike (fst l1) (fst l2) -> perm_seq w (pc_rng (fst l1)) ->
  (1 <= B)%nat -> Forall (batch_ok B (pc_in (fst l1))) h ->
  exists os1 os2,
    outputs (run_r (flin_step (fst l1) (flin_acc_cfg (fst l1) None (snd l1))) (flin_init (fst l1)) (no_args h)) = Some os1 /\
    outputs (run_r (flin_step (fst l2) (flin_acc_cfg (fst l2) None (snd l2))) (flin_init (fst l2)) (no_args h)) = Some os2 /\
    length os1 = length h /\ length os2 = length h /\
    Forall (batch_ok B (pc_out (fst l1))) os1 /\ Forall (batch_ok B (pc_out (fst l1))) os2 /\
    forall b o t, (b < B)%nat -> (o < pc_out (fst l1))%nat -> (t <= length h)%nat ->
      Z.abs (ones (firstn t (lane os1 b o)) - ones (firstn t (lane os2 b o))) <=
      ((zsum (map (fun i => Z.abs (entry2 (pc_weight (fst l1)) o i - entry2 (pc_weight (fst l2)) o i)) (seq 0 (pc_in (fst l1)))) +
        bias_off (fst l1) (fst l2) o) * periods w (Z.of_nat t) + flin_entry (fst l1) - 1) / flin_entry (fst l1).
Proof.
  intros [c1 d1] [c2 d2] w B h T1 T2 (Em & Er & Ei & Eo & Eb) P HB H1. assert (He := T1). destruct He as (_ & _ & He & _). cbn [fst snd] in *.
  assert (H2 : Forall (batch_ok B (pc_in c2)) h) by (rewrite <- Ei; exact H1).
  destruct (timed_prefix c1 d1 B h T1 HB H1) as (os1 & E1 & L1 & Sh1 & G1). destruct (timed_prefix c2 d2 B h T2 HB H2) as (os2 & E2 & L2 & Sh2 & G2).
  exists os1, os2. split; [exact E1|]. split; [exact E2|]. split; [exact L1|]. split; [exact L2|]. split; [exact Sh1|]. split; [rewrite Eo; exact Sh2|].
  intros b o t Hb Ho Ht. rewrite G1 by assumption. rewrite G2 by (try assumption; rewrite <- Eo; exact Ho).
  assert (Ee : flin_entry c1 = flin_entry c2) by (unfold flin_entry; rewrite Ei; destruct (pc_bias c1), (pc_bias c2); try contradiction; reflexivity).
  rewrite <- Ee. apply div_gap; [exact He|]. rewrite <- Em, <- Ei, <- Er.
  set (p := periods w (Z.of_nat t)). rewrite Z.mul_add_distr_r.
  match goal with |- Z.abs (?x + ?u - (?y + ?v)) <= ?a * p + _ => assert (Hs : Z.abs (x - y) <= a * p); [|assert (Hbb : Z.abs (u - v) <= bias_off c1 c2 o * p); [|lia]] end.
  - eapply Z.le_trans; [apply (zsum_abs_le _ _ (fun i => Z.abs (entry2 (pc_weight c1) o i - entry2 (pc_weight c2) o i) * p))|].
    + intros i Hi. apply in_seq in Hi. apply tprod_off; [exact P|]. apply BaseLemmas.Forall_firstn. apply (LinearProof.lane_bits B (pc_in c1)); try assumption; lia.
    + apply Z.eq_le_incl. generalize (seq 0 (pc_in c1)). intros l. induction l as [|i l IH]; [reflexivity|]. cbn [map zsum]. rewrite IH. ring.
  - unfold bias_off. destruct (pc_bias c1), (pc_bias c2); try contradiction; [|lia]. apply gen_off, P.
Qed.

Theorem timed_negated : forall l B h, timed l -> pc_mode (fst l) = Bipolar -> pc_bias (fst l) = None -> (1 <= B)%nat ->
  Forall (batch_ok B (pc_in (fst l))) h ->
  exists os1 os2,
    outputs (run_r (flin_step (fst l) (flin_acc_cfg (fst l) None (snd l))) (flin_init (fst l)) (no_args h)) = Some os1 /\
    outputs (run_r (flin_step (fst l) (flin_acc_cfg (fst l) None (snd l))) (flin_init (fst l)) (no_args (negated_batches h))) = Some os2 /\
    length os1 = length h /\ length os2 = length h /\
    forall b o t, (b < B)%nat -> (o < pc_out (fst l))%nat -> (t <= length h)%nat ->
      0 <= Z.of_nat t - ones (firstn t (lane os1 b o)) - ones (firstn t (lane os2 b o)) <= 1.
Proof.
  intros [c d] B h T Hm Hbias HB H1. assert (He := T). destruct He as (_ & _ & He & _). cbn [fst snd] in *. pose proof (negated_ok B (pc_in c) h H1) as H2.
  destruct (timed_prefix c d B h T HB H1) as (os1 & E1 & L1 & _ & G1). destruct (timed_prefix c d B _ T HB H2) as (os2 & E2 & L2 & _ & G2). rewrite negated_batches_length in L2, G2.
  exists os1, os2. split; [exact E1|]. split; [exact E2|]. split; [exact L1|]. split; [exact L2|].
  intros b o t Hb Ho Ht. rewrite G1, G2, Hbias, Hm, !Z.add_0_r by assumption.
  assert (Ent : Z.of_nat (pc_in c) = flin_entry c) by (unfold flin_entry; rewrite Hbias; lia).
  set (P i := tprod Bipolar (entry2 (pc_weight c) o i) (pc_rng c) (firstn t (lane h b i)) t).
  assert (S2 : map (fun i => tprod Bipolar (entry2 (pc_weight c) o i) (pc_rng c) (firstn t (lane (negated_batches h) b i)) t) (seq 0 (pc_in c)) = map (fun i => Z.of_nat t - P i) (seq 0 (pc_in c))).
  { apply map_ext_in. intros i Hi. apply in_seq in Hi. rewrite (negated_lane B (pc_in c)) by (try assumption; lia). unfold negated. rewrite firstn_map. fold (negated (firstn t (lane h b i))).
    assert (Lf : length (firstn t (lane h b i)) = t) by (rewrite firstn_length, LinearProof.lane_length; lia).
    pose proof (tprod_negated (entry2 (pc_weight c) o i) (pc_rng c) (firstn t (lane h b i))) as K. unfold zlen in K. rewrite Lf in K. apply K.
    apply BaseLemmas.Forall_firstn. apply (LinearProof.lane_bits B (pc_in c)); try assumption; lia. }
  rewrite S2. assert (S3 : zsum (map (fun i => Z.of_nat t - P i) (seq 0 (pc_in c))) = Z.of_nat t * flin_entry c - zsum (map P (seq 0 (pc_in c)))).
  { rewrite <- Ent. clear. induction (pc_in c) as [|n IH]; [cbn; lia|]. rewrite seq_S, !map_app, !zsum_app, IH. cbn [map zsum]. lia. }
  rewrite S3. apply neg_div, He.
Qed.

(** ** Jitter *)
Lemma counts_same : forall xs ys, bits xs -> bits ys -> length xs = length ys -> (forall t, ones (firstn t xs) = ones (firstn t ys)) -> xs = ys.
Proof.
  induction xs as [|x xs IH]; intros [|y ys] Hx Hy L H; try discriminate; [reflexivity|].
  assert (E : x = y).
  { specialize (H 1%nat). cbn [firstn] in H. pose proof (Forall_inv Hx) as Bx. pose proof (Forall_inv Hy) as By. destruct Bx as [-> | ->], By as [-> | ->]; try reflexivity; discriminate H. }
  subst y. f_equal. apply IH; [exact (Forall_inv_tail Hx)|exact (Forall_inv_tail Hy)|cbn in L; lia|].
  intros t. specialize (H (S t)). cbn [firstn] in H. change (x :: firstn t xs) with ([x] ++ firstn t xs) in H. change (x :: firstn t ys) with ([x] ++ firstn t ys) in H. rewrite !ones_app in H. lia.
Qed.
Definition zero_one (n : nat) : list Z := concat (repeat [0; 1] n).
Definition one_zero (n : nat) : list Z := concat (repeat [1; 0] n).
Lemma alt_length n : length (zero_one n) = (2 * n)%nat /\ length (one_zero n) = (2 * n)%nat.
Proof. unfold zero_one, one_zero. induction n as [|n [I1 I2]]; [split; reflexivity|]. cbn [repeat concat app length]. lia. Qed.
Lemma alt_bits n : bits (zero_one n) /\ bits (one_zero n).
Proof.
  unfold zero_one, one_zero. induction n as [|n [I1 I2]]; [split; constructor|]. cbn [repeat concat app].
  split; (constructor; [unfold bit; lia|constructor; [unfold bit; lia|assumption]]).
Qed.
Lemma alt_ones : forall n t, (t <= 2 * n)%nat -> ones (firstn t (zero_one n)) = Z.of_nat t / 2 /\ ones (firstn t (one_zero n)) = (Z.of_nat t + 1) / 2.
Proof.
  unfold zero_one, one_zero. induction n as [|n IH]; intros t Ht; [replace t with 0%nat by lia; split; reflexivity|].
  destruct t as [|[|t]]; [split; reflexivity|split; reflexivity|]. destruct (IH t ltac:(lia)) as [I1 I2]. cbn [repeat concat app firstn].
  change (0 :: 1 :: ?l) with ([0; 1] ++ l). change (1 :: 0 :: ?l) with ([1; 0] ++ l). rewrite !ones_app, I1, I2.
  change (ones [0; 1]) with 1. change (ones [1; 0]) with 1. split; lia.
Qed.
Lemma alt_nth : forall n t, (t < 2 * n)%nat -> nth t (zero_one n) 0 = Z.of_nat t mod 2 /\ nth t (one_zero n) 0 = 1 - Z.of_nat t mod 2.
Proof.
  unfold zero_one, one_zero. induction n as [|n IH]; intros t Ht; [lia|]. destruct t as [|[|t]]; [split; reflexivity|split; reflexivity|].
  destruct (IH t ltac:(lia)) as [I1 I2]. cbn [repeat concat app nth]. rewrite I1, I2. split; lia.
Qed.
Lemma even_bit t : bsgen_bit 1 [0; 1] (Z.of_nat t) = 1 - Z.of_nat t mod 2.
Proof.
  unfold bsgen_bit. change (zlen [0; 1]) with 2. assert (H : Z.of_nat t mod 2 = 0 \/ Z.of_nat t mod 2 = 1) by lia. destruct H as [-> | ->]; reflexivity.
Qed.
Lemma full_bit t : bsgen_bit 2 [0; 1] (Z.of_nat t) = 1.
Proof.
  unfold bsgen_bit. change (zlen [0; 1]) with 2. assert (H : Z.of_nat t mod 2 = 0 \/ Z.of_nat t mod 2 = 1) by lia. destruct H as [-> | ->]; reflexivity.
Qed.
Lemma alt_tprod n : tprod Unipolar 1 [0; 1] (zero_one n) (2 * n) = 0 /\ tprod Unipolar 1 [0; 1] (one_zero n) (2 * n) = Z.of_nat n.
Proof.
  unfold tprod. split.
  - rewrite (map_ext_in _ (fun _ => 0)); [rewrite zsum_const; lia|]. intros t Ht. apply in_seq in Ht. rewrite (proj1 (alt_nth n t ltac:(lia))), even_bit. unfold product_bit. nia.
  - rewrite (map_ext_in _ (fun t => 1 - Z.of_nat t mod 2)).
    + clear. induction n as [|n IH]; [reflexivity|]. replace (2 * S n)%nat with (S (S (2 * n))) by lia. rewrite !seq_S, !map_app, !zsum_app, IH. cbn [map zsum]. lia.
    + intros t Ht. apply in_seq in Ht. rewrite (proj2 (alt_nth n t ltac:(lia))), even_bit. unfold product_bit. assert (0 <= Z.of_nat t mod 2 <= 1) by lia. nia.
Qed.
Lemma full_tprod xs : bits xs -> tprod Unipolar 2 [0; 1] xs (length xs) = ones xs.
Proof.
  intros Hx. unfold tprod. rewrite (map_ext _ (fun t => nth t xs 0)) by (intros t; rewrite full_bit; unfold product_bit; lia).
  induction Hx as [|x xs Hb _ IH]; [reflexivity|]. cbn [length seq map zsum]. rewrite <- seq_shift, map_map. cbn [nth]. rewrite IH.
  change (x :: xs) with ([x] ++ xs). rewrite ones_app. f_equal. destruct Hb as [-> | ->]; reflexivity.
Qed.

Lemma tick_timed : timed tick.
Proof. unfold timed, pc_shape, tick. cbn. repeat split; try lia; try (repeat constructor); vm_compute; discriminate. Qed.
Lemma halve_timed : timed halve.
Proof. unfold timed, pc_shape, halve. cbn. repeat split; try lia; try (repeat constructor); vm_compute; discriminate. Qed.
Definition single_lane (xs : list Z) : list (list (list Z)) := map (fun x => [[x]]) xs.
Lemma single_ok xs : bits xs -> Forall (batch_ok 1 1) (single_lane xs).
Proof. intros Hx. apply Forall_map. eapply Forall_impl; [|exact Hx]. intros x Hb. repeat split. constructor; [|constructor]. split; [reflexivity|]. constructor; [exact Hb|constructor]. Qed.
Lemma single_lane_lane xs : lane (single_lane xs) 0 0 = xs.
Proof. unfold lane, single_lane. rewrite map_map. apply map_id. Qed.
Lemma lane_single os : Forall (batch_ok 1 1) os -> os = single_lane (lane os 0 0).
Proof.
  induction 1 as [|x os [L F] _ IH]; [reflexivity|]. unfold lane, single_lane in *. cbn [map]. f_equal; [|exact IH].
  destruct x as [|r [|]]; try discriminate. pose proof (Forall_inv F) as [Lr _]. destruct r as [|v [|]]; try discriminate. reflexivity.
Qed.
Lemma tick_run n : exists os1 os2,
  outputs (run_r (flin_step (fst tick) (flin_acc_cfg (fst tick) None (snd tick))) (flin_init (fst tick)) (no_args (single_lane (zero_one n)))) = Some os1 /\
  outputs (run_r (flin_step (fst tick) (flin_acc_cfg (fst tick) None (snd tick))) (flin_init (fst tick)) (no_args (single_lane (one_zero n)))) = Some os2 /\
  length os1 = (2 * n)%nat /\ length os2 = (2 * n)%nat /\ ones (lane os1 0 0) = 0 /\ ones (lane os2 0 0) = Z.of_nat n.
Proof.
  destruct (alt_bits n) as [B1 B2]. destruct (alt_length n) as [A1 A2].
  destruct (timed_prefix (fst tick) (snd tick) 1 (single_lane (zero_one n)) tick_timed ltac:(lia) (single_ok _ B1)) as (os1 & E1 & L1 & _ & G1).
  destruct (timed_prefix (fst tick) (snd tick) 1 (single_lane (one_zero n)) tick_timed ltac:(lia) (single_ok _ B2)) as (os2 & E2 & L2 & _ & G2).
  unfold single_lane in L1, L2. rewrite map_length in L1, L2. rewrite A1 in L1. rewrite A2 in L2.
  exists os1, os2. split; [exact E1|]. split; [exact E2|]. split; [exact L1|]. split; [exact L2|].
  specialize (G1 0%nat 0%nat (2 * n)%nat ltac:(lia) ltac:(cbn; lia) ltac:(unfold single_lane; rewrite map_length; lia)).
  specialize (G2 0%nat 0%nat (2 * n)%nat ltac:(lia) ltac:(cbn; lia) ltac:(unfold single_lane; rewrite map_length; lia)).
  rewrite (firstn_all2 (lane os1 0 0)) in G1 by (rewrite LinearProof.lane_length; lia). rewrite (firstn_all2 (lane os2 0 0)) in G2 by (rewrite LinearProof.lane_length; lia).
  change (seq 0 (pc_in (fst tick))) with [0%nat] in G1, G2. cbn [map zsum] in G1, G2. rewrite single_lane_lane, firstn_all2 in G1, G2 by lia.
  change (tprod (pc_mode (fst tick)) (entry2 (pc_weight (fst tick)) 0 0) (pc_rng (fst tick))) with (tprod Unipolar 1 [0; 1]) in G1, G2.
  rewrite (proj1 (alt_tprod n)) in G1. rewrite (proj2 (alt_tprod n)) in G2. rewrite G1, G2. split; [reflexivity|].
  change (pc_bias (fst tick)) with (@None (list Z)). cbv iota. change (flin_entry (fst tick)) with 1. rewrite Z.div_1_r. lia.
Qed.

Theorem timed_jitter : forall n, exists h1 h2 os1 os2,
  Forall (batch_ok 1 1) h1 /\ Forall (batch_ok 1 1) h2 /\ length h1 = (2 * n)%nat /\ length h2 = (2 * n)%nat /\ lanes_within 1 1 (fun _ _ => 1) h1 h2 /\
  outputs (run_r (flin_step (fst tick) (flin_acc_cfg (fst tick) None (snd tick))) (flin_init (fst tick)) (no_args h1)) = Some os1 /\
  outputs (run_r (flin_step (fst tick) (flin_acc_cfg (fst tick) None (snd tick))) (flin_init (fst tick)) (no_args h2)) = Some os2 /\
  ones (lane os1 0 0) = 0 /\ ones (lane os2 0 0) = Z.of_nat n.
Proof.
  intros n. destruct (alt_bits n) as [B1 B2]. destruct (alt_length n) as [A1 A2]. destruct (tick_run n) as (os1 & os2 & E1 & E2 & _ & _ & O1 & O2).
  exists (single_lane (zero_one n)), (single_lane (one_zero n)), os1, os2. split; [apply single_ok, B1|]. split; [apply single_ok, B2|].
  unfold single_lane at 1 2. rewrite !map_length. split; [exact A1|]. split; [exact A2|]. split; [|repeat split; assumption].
  intros b i Hb Hi. replace b with 0%nat by lia. replace i with 0%nat by lia. rewrite !single_lane_lane. apply within_all; [congruence|]. intros t Ht. rewrite A1 in Ht.
  destruct (alt_ones n t Ht) as [-> ->]. lia.
Qed.

Definition pair_lanes (xs ys : list Z) : list (list (list Z)) := map2 (fun x y => [[x; y]]) xs ys.
Lemma pair_facts : forall xs ys, length xs = length ys -> bits xs -> bits ys ->
  Forall (batch_ok 1 2) (pair_lanes xs ys) /\ length (pair_lanes xs ys) = length xs /\ lane (pair_lanes xs ys) 0 0 = xs /\ lane (pair_lanes xs ys) 0 1 = ys.
Proof.
  unfold pair_lanes, lane. induction xs as [|x xs IH]; intros [|y ys] L Hx Hy; try discriminate; [repeat split; constructor|].
  destruct (IH ys ltac:(cbn in L; lia) (Forall_inv_tail Hx) (Forall_inv_tail Hy)) as (I1 & I2 & I3 & I4).
  cbn [map2 map length]. rewrite I2, I3, I4. split; [|repeat split]. constructor; [|exact I1]. split; [reflexivity|]. constructor; [|constructor]. split; [reflexivity|].
  constructor; [exact (Forall_inv Hx)|]. constructor; [exact (Forall_inv Hy)|constructor].
Qed.
Lemma ones_repeat v k : bit v -> ones (repeat v k) = Z.of_nat k * v.
Proof.
  intros Hv. induction k as [|k IH]; [reflexivity|]. change (repeat v (S k)) with ([v] ++ repeat v k). rewrite ones_app, IH.
  replace (ones [v]) with v by (destruct Hv as [-> | ->]; reflexivity). lia.
Qed.
Lemma firstn_rep {A} (v : A) k t : (t <= k)%nat -> firstn t (repeat v k) = repeat v t.
Proof. intros H. replace k with (t + (k - t))%nat by lia. rewrite repeat_app, firstn_app, repeat_length, Nat.sub_diag. cbn [firstn]. rewrite app_nil_r. apply firstn_all2. rewrite repeat_length. lia. Qed.

Theorem timed_two : forall n, exists h1 h2 os1 os2,
  Forall (batch_ok 1 2) h1 /\ Forall (batch_ok 1 2) h2 /\ length h1 = (2 * S n)%nat /\ length h2 = (2 * S n)%nat /\
  lane h1 0 0 = lane h2 0 0 /\ flips (lane h1 0 1) (lane h2 0 1) = 1 /\
  outputs (run_r (net_step (map plain [halve; tick])) (net_init (map plain [halve; tick])) h1) = Some os1 /\
  outputs (run_r (net_step (map plain [halve; tick])) (net_init (map plain [halve; tick])) h2) = Some os2 /\
  ones (lane os1 0 0) = 0 /\ ones (lane os2 0 0) = Z.of_nat (S n).
Proof.
  intros n. set (T := (2 * S n)%nat). set (one := repeat 1 T). set (z := repeat 0 T). set (z' := 1 :: repeat 0 (S (2 * n))).
  assert (RB : forall v k, bit v -> bits (repeat v k)) by (intros v k Hv; apply Forall_forall; intros x Hx; apply repeat_spec in Hx; subst x; exact Hv).
  assert (Z0 : bit 0) by (left; reflexivity). assert (Z1 : bit 1) by (right; reflexivity).
  assert (Bo : bits one) by (apply RB, Z1). assert (Bz : bits z) by (apply RB, Z0). assert (Bz' : bits z') by (constructor; [exact Z1|apply RB, Z0]).
  assert (Lo : length one = T) by apply repeat_length. assert (Lz : length z = T) by apply repeat_length. assert (Lz' : length z' = T) by (unfold z', T; cbn [length]; rewrite repeat_length; lia).
  destruct (pair_facts one z ltac:(congruence) Bo Bz) as (P1 & K1 & X1 & Y1). destruct (pair_facts one z' ltac:(congruence) Bo Bz') as (P2 & K2 & X2 & Y2).
  set (h1 := pair_lanes one z) in *. set (h2 := pair_lanes one z') in *. rewrite Lo in K1, K2.
  destruct (timed_prefix (fst halve) (snd halve) 1 h1 halve_timed ltac:(lia) P1) as (m1 & E1 & L1 & S1 & G1).
  destruct (timed_prefix (fst halve) (snd halve) 1 h2 halve_timed ltac:(lia) P2) as (m2 & E2 & L2 & S2 & G2).
  assert (C : forall h m ys, length ys = T -> length h = T -> length m = T -> bits ys -> lane h 0 0 = one -> lane h 0 1 = ys ->
    (forall b o t, (b < 1)%nat -> (o < pc_out (fst halve))%nat -> (t <= length h)%nat -> ones (firstn t (lane m b o)) =
      (zsum (map (fun i => tprod (pc_mode (fst halve)) (entry2 (pc_weight (fst halve)) o i) (pc_rng (fst halve)) (firstn t (lane h b i)) t) (seq 0 (pc_in (fst halve))))
       + match pc_bias (fst halve) with None => 0 | Some bs => ones (bsgen_stream (nth o bs 0) (pc_rng (fst halve)) 0 t) end) / flin_entry (fst halve)) ->
    forall t, (t <= T)%nat -> ones (firstn t (lane m 0 0)) = (Z.of_nat t + ones (firstn t ys)) / 2).
  { intros h m ys Ly Lh Lm By Hx Hy G t Ht. rewrite (G 0%nat 0%nat t) by (cbn; lia). change (pc_bias (fst halve)) with (@None (list Z)). cbv iota.
    change (flin_entry (fst halve)) with 2. change (seq 0 (pc_in (fst halve))) with [0%nat; 1%nat]. cbn [map zsum]. rewrite Hx, Hy.
    change (pc_mode (fst halve)) with Unipolar. change (pc_rng (fst halve)) with [0; 1]. change (entry2 (pc_weight (fst halve)) 0 0) with 2. change (entry2 (pc_weight (fst halve)) 0 1) with 2.
    assert (Q : forall xs, bits xs -> length xs = T -> tprod Unipolar 2 [0; 1] (firstn t xs) t = ones (firstn t xs)).
    { intros xs Bx Lx. pose proof (full_tprod (firstn t xs) (BaseLemmas.Forall_firstn _ _ _ Bx)) as F. rewrite firstn_length, Lx, Nat.min_l in F by exact Ht. exact F. }
    rewrite (Q one Bo Lo), (Q ys By Ly). unfold one. rewrite firstn_rep, ones_repeat by (try exact Ht; exact Z1). f_equal. lia. }
  assert (D1 : m1 = single_lane (zero_one (S n))).
  { rewrite (lane_single m1 S1). f_equal. apply counts_same.
    - apply (LinearProof.lane_bits 1 1); [exact S1|lia|lia].
    - apply alt_bits.
    - rewrite LinearProof.lane_length, (proj1 (alt_length (S n))). unfold T in *. lia.
    - intros t. destruct (Nat.le_gt_cases t T) as [Ht|Ht].
      + rewrite (C h1 m1 z Lz K1 ltac:(congruence) Bz X1 Y1 G1 t Ht), (proj1 (alt_ones (S n) t Ht)). unfold z. rewrite firstn_rep, ones_repeat by (try exact Ht; exact Z0). f_equal. lia.
      + pose proof (C h1 m1 z Lz K1 ltac:(congruence) Bz X1 Y1 G1 T ltac:(lia)) as Q. rewrite firstn_all2 in Q by (rewrite LinearProof.lane_length; lia).
        rewrite firstn_all2 by (rewrite LinearProof.lane_length; lia). rewrite Q. pose proof (proj1 (alt_ones (S n) T ltac:(unfold T; lia))) as Q2.
        rewrite firstn_all2 in Q2 by (rewrite (proj1 (alt_length (S n))); unfold T; lia). rewrite (firstn_all2 (zero_one (S n))) by (rewrite (proj1 (alt_length (S n))); unfold T in Ht; lia).
        rewrite Q2. unfold z. rewrite firstn_rep, ones_repeat by (try lia; exact Z0). f_equal; lia. }
  assert (O' : forall t, (1 <= t)%nat -> (t <= T)%nat -> ones (firstn t z') = 1).
  { intros t H1 H2. destruct t as [|t]; [lia|]. unfold z'. cbn [firstn]. change (1 :: firstn t (repeat 0 (S (2 * n)))) with ([1] ++ firstn t (repeat 0 (S (2 * n)))).
    rewrite ones_app, firstn_rep, ones_repeat by (try (unfold T in H2; lia); exact Z0). change (ones [1]) with 1. lia. }
  assert (D2 : m2 = single_lane (one_zero (S n))).
  { rewrite (lane_single m2 S2). f_equal. apply counts_same.
    - apply (LinearProof.lane_bits 1 1); [exact S2|lia|lia].
    - apply alt_bits.
    - rewrite LinearProof.lane_length, (proj2 (alt_length (S n))). unfold T in *. lia.
    - intros t. destruct t as [|t0]; [reflexivity|]. set (t := S t0). destruct (Nat.le_gt_cases t T) as [Ht|Ht].
      + rewrite (C h2 m2 z' Lz' K2 ltac:(congruence) Bz' X2 Y2 G2 t Ht), (proj2 (alt_ones (S n) t Ht)), O' by (try exact Ht; unfold t; lia). reflexivity.
      + pose proof (C h2 m2 z' Lz' K2 ltac:(congruence) Bz' X2 Y2 G2 T ltac:(lia)) as Q. rewrite firstn_all2 in Q by (rewrite LinearProof.lane_length; lia).
        rewrite firstn_all2 by (rewrite LinearProof.lane_length; lia). rewrite Q. pose proof (proj2 (alt_ones (S n) T ltac:(unfold T; lia))) as Q2.
        rewrite firstn_all2 in Q2 by (rewrite (proj2 (alt_length (S n))); unfold T; lia). rewrite (firstn_all2 (one_zero (S n))) by (rewrite (proj2 (alt_length (S n))); unfold T in Ht; lia).
        rewrite Q2, O' by (unfold T; lia). reflexivity. }
  subst m1 m2. destruct (tick_run (S n)) as (os1 & os2 & R1 & R2 & _ & _ & O1 & O2).
  exists h1, h2, os1, os2. split; [exact P1|]. split; [exact P2|]. split; [exact K1|]. split; [exact K2|]. split; [congruence|]. split.
  - rewrite Y1, Y2. unfold z, z', T. replace (2 * S n)%nat with (S (S (2 * n))) by lia. cbn [repeat]. change (0 :: repeat 0 (2 * n)) with (repeat 0 (S (2 * n))).
    rewrite flips_cons. replace (flips (repeat 0 (S (2 * n))) (repeat 0 (S (2 * n)))) with 0; [reflexivity|].
    generalize (S (2 * n)). induction n0 as [|k IH]; [reflexivity|]. cbn [repeat]. rewrite flips_cons, <- IH. reflexivity.
  - cbn [map]. unfold net_init. cbn [map]. split; [exact (net_run _ _ _ _ _ _ _ _ E1 (net_run _ _ _ _ _ _ _ _ R1 (net_nil_run _ _)))|].
    split; [exact (net_run _ _ _ _ _ _ _ _ E2 (net_run _ _ _ _ _ _ _ _ R2 (net_nil_run _ _)))|]. split; assumption.
Qed.
