(** Proofs about wrong bits. *)
Require Import Verif.BaseLemmas Verif.FaultSpec Verif.AddModel Verif.AddProof Verif.GenModel Verif.GenProof Verif.KernelModel Verif.KernelProof Verif.LinearModel Verif.LinearProof Verif.ChainProof Verif.ProgProof Verif.HubProof Verif.NetSpec Verif.NetProof Verif.MonoProof Verif.MonoUnitsProof Verif.DivModel Verif.DivProof Verif.DivZeroProof.
From Coq Require Import Lqa.
Open Scope Z_scope.

Lemma flips_cons x y xs ys : flips (x :: xs) (y :: ys) = b2z (negb (x =? y)) + flips xs ys.
Proof. unfold flips. cbn [combine countb fst snd]. destruct (negb (x =? y)); reflexivity. Qed.
Lemma flips_nonneg xs ys : 0 <= flips xs ys.
Proof. unfold flips. apply countb_nonneg. Qed.
Lemma flips_firstn xs : forall ys t, flips (firstn t xs) (firstn t ys) <= flips xs ys.
Proof.
  induction xs as [|x xs IH]; intros [|y ys] [|t]; cbn [firstn]; try (apply flips_nonneg); try (unfold flips; cbn; lia).
  rewrite !flips_cons. specialize (IH ys t). lia.
Qed.
Lemma flips_ones xs : forall ys, bits xs -> bits ys -> length xs = length ys -> Z.abs (ones xs - ones ys) <= flips xs ys.
Proof.
  induction xs as [|x xs IH]; intros [|y ys] Hx Hy L; try discriminate L; [cbn; lia|].
  inversion Hx; inversion Hy; subst.
  rewrite !ones_bit by assumption. rewrite flips_cons. cbn [length] in L. specialize (IH ys ltac:(assumption) ltac:(assumption) ltac:(lia)).
  destruct (Z.eqb_spec x y); cbn [negb b2z]; unfold bit in *; lia.
Qed.
Theorem flips_within : forall xs ys, bits xs -> bits ys -> length xs = length ys -> within (flips xs ys) xs ys.
Proof.
  intros xs ys Hx Hy L t. eapply Z.le_trans; [apply flips_ones|apply flips_firstn]; try (apply BaseLemmas.Forall_firstn; assumption).
  rewrite !firstn_length, L. reflexivity.
Qed.

(** ** The adder *)
Definition larger (a b : list Z) : list Z := if zsum a <=? zsum b then b else a.
Lemma larger_le : forall cols1 cols2, length cols1 = length cols2 ->
  columns_le cols1 (map2 larger cols1 cols2) /\ columns_le cols2 (map2 larger cols1 cols2).
Proof.
  induction cols1 as [|x l IH]; intros [|y m] L; try discriminate; [split; constructor|]. cbn [map2]. destruct (IH m ltac:(cbn in L; lia)) as [A B].
  split; (constructor; [unfold larger; destruct (Z.leb_spec (zsum x) (zsum y)); lia|assumption]).
Qed.
Lemma larger_len e : forall cols1 cols2, Forall (fun c : list Z => zlen c = e) cols1 -> Forall (fun c : list Z => zlen c = e) cols2 -> Forall (fun c : list Z => zlen c = e) (map2 larger cols1 cols2).
Proof.
  intros cols1 cols2 H. revert cols2. induction H as [|x l Hx _ IH]; intros [|y m] H2; try constructor; pose proof (Forall_inv H2); pose proof (Forall_inv_tail H2).
  - unfold larger. destruct (zsum x <=? zsum y); assumption.
  - apply IH. assumption.
Qed.
Lemma surplus_larger s : (0 < s)%Q -> forall cols1 cols2 t, length cols1 = length cols2 -> (t <= length cols1)%nat ->
  surplus s cols1 (map2 larger cols1 cols2) t <= zsum (map (fun i => Qceiling (inject_Z (Z.abs (zsum (nth i cols2 []) - zsum (nth i cols1 []))) / s)) (seq 0 t)) /\
  surplus s cols2 (map2 larger cols1 cols2) t <= zsum (map (fun i => Qceiling (inject_Z (Z.abs (zsum (nth i cols2 []) - zsum (nth i cols1 []))) / s)) (seq 0 t)).
Proof.
  intros Hs cols1 cols2 t L Ht. unfold surplus.
  assert (N : forall i, (i < length cols1)%nat -> nth i (map2 larger cols1 cols2) [] = larger (nth i cols1 []) (nth i cols2 [])).
  { clear t Ht. revert cols2 L. induction cols1 as [|x l IH]; intros [|y m] L i Hi; try discriminate; cbn [length] in *; [lia|]. destruct i as [|i]; [reflexivity|].
    cbn [map2 nth]. apply IH; lia. }
  split; apply zsum_map_le; intros i Hi; apply in_seq in Hi; rewrite N by lia; apply Qceiling_resp_le; unfold Qdiv; apply Qmult_le_compat_r;
    try (apply Qlt_le_weak, Qinv_lt_0_compat, Hs); rewrite <- Zle_Qle; unfold larger; destruct (Z.leb_spec (zsum (nth i cols1 [])) (zsum (nth i cols2 []))); lia.
Qed.

Theorem add_faults : forall c e s cols1 cols2,
  resolved_entry None (fa_entry c) e = e -> resolved_scale None (fa_scale c) e = s -> (0 < s)%Q ->
  Forall (fun col => zlen col = e) cols1 -> Forall (fun col => zlen col = e) cols2 -> length cols1 = length cols2 ->
  forall t, (t <= length cols1)%nat ->
  Z.abs (ones (firstn t (outs (fsuadd_step c) (fsuadd_init c) cols1)) - ones (firstn t (outs (fsuadd_step c) (fsuadd_init c) cols2))) <=
  zsum (map (fun i => Qceiling (inject_Z (Z.abs (zsum (nth i cols2 []) - zsum (nth i cols1 []))) / s)) (seq 0 t)).
Proof.
  intros c e s cols1 cols2 He Hsc Hs H1 H2 L t Ht. destruct (larger_le cols1 cols2 L) as [A1 A2].
  pose proof (larger_len e cols1 cols2 H1 H2) as HJ.
  pose proof (add_mono c e s cols1 _ He Hsc Hs H1 HJ A1 t) as B1. pose proof (add_mono c e s cols2 _ He Hsc Hs H2 HJ A2 t) as B2.
  rewrite outs_length in B1, B2. specialize (B1 Ht). rewrite <- L in B2. specialize (B2 Ht).
  destruct (surplus_larger s Hs cols1 cols2 t L Ht) as [S1 S2]. lia.
Qed.

(** ** The multiplier *)
Lemma below_gap l B a b : (a <= b)%nat -> 0 <= below l B b - below l B a <= Z.of_nat b - Z.of_nat a.
Proof.
  intros H. pose proof (below_mono_n l B a b H). pose proof (below_steps l B a (b - a)). replace (a + (b - a))%nat with b in * by lia. lia.
Qed.
Lemma mul_pair m B rng xs ys : (0 < length rng)%nat -> bits xs -> bits ys -> length xs = length ys ->
  Z.abs (ones (outs (fsumul_static_step m B rng) fsumul_static_init xs) - ones (outs (fsumul_static_step m B rng) fsumul_static_init ys)) <= Z.abs (ones xs - ones ys).
Proof.
  intros Hr Hx Hy L. rewrite (proj2 (mul_static_count m B rng xs Hr Hx)), (proj2 (mul_static_count m B rng ys Hr Hy)).
  pose proof (ones_nonneg xs). pose proof (ones_nonneg ys). pose proof (zeros_nonneg xs). pose proof (zeros_nonneg ys).
  assert (Ez : ones xs + zeros xs = ones ys + zeros ys).
  { pose proof (ones_zeros xs Hx). pose proof (ones_zeros ys Hy). unfold zlen in *. lia. }
  set (a := ones xs) in *. set (b := ones ys) in *. set (za := zeros xs) in *. set (zb := zeros ys) in *.
  destruct (Z.le_gt_cases a b) as [C|C].
  - pose proof (below_gap rng B (Z.to_nat a) (Z.to_nat b) ltac:(lia)). pose proof (below_gap rng B (Z.to_nat zb) (Z.to_nat za) ltac:(lia)). destruct m; lia.
  - pose proof (below_gap rng B (Z.to_nat b) (Z.to_nat a) ltac:(lia)). pose proof (below_gap rng B (Z.to_nat za) (Z.to_nat zb) ltac:(lia)). destruct m; lia.
Qed.
Theorem mul_faults : forall m B rng k xs ys, (0 < length rng)%nat -> bits xs -> bits ys -> length xs = length ys -> within k xs ys ->
  within k (outs (fsumul_static_step m B rng) fsumul_static_init xs) (outs (fsumul_static_step m B rng) fsumul_static_init ys).
Proof.
  intros m B rng k xs ys Hr Hx Hy L H t. rewrite <- !BaseLemmas.outs_firstn. eapply Z.le_trans; [apply mul_pair|apply H]; try exact Hr; try (apply BaseLemmas.Forall_firstn; assumption).
  rewrite !firstn_length, L. reflexivity.
Qed.

(** ** Layers and networks *)
Lemma div_gap a b e k : 0 < e -> Z.abs (a - b) <= k -> Z.abs (a / e - b / e) <= (k + e - 1) / e.
Proof.
  intros He H. assert (G : forall a b, a <= b -> b - a <= k -> 0 <= b / e - a / e <= (k + e - 1) / e).
  { clear a b H. intros a b H1 H2. pose proof (Z.div_le_mono a b e He H1). split; [lia|].
    pose proof (Z.div_mod a e ltac:(lia)) as Ea. pose proof (Z.div_mod b e ltac:(lia)) as Eb.
    pose proof (Z.mod_pos_bound a e He). pose proof (Z.mod_pos_bound b e He).
    apply Z.div_le_lower_bound; [exact He|]. nia. }
  destruct (Z.le_gt_cases a b); [pose proof (G a b)|pose proof (G b a)]; lia.
Qed.
Lemma zsum_abs_le {A} (f g k : A -> Z) l : (forall i, In i l -> Z.abs (f i - g i) <= k i) -> Z.abs (zsum (map f l) - zsum (map g l)) <= zsum (map k l).
Proof.
  induction l as [|x l IH]; intros H; [cbn; lia|]. cbn [map zsum]. pose proof (H x (or_introl eq_refl)).
  specialize (IH (fun i Hi => H i (or_intror Hi))). lia.
Qed.

Theorem linear_faults : forall l B h1 h2 k, sound l -> (1 <= B)%nat ->
  Forall (batch_ok B (pc_in (fst l))) h1 -> Forall (batch_ok B (pc_in (fst l))) h2 -> length h1 = length h2 ->
  lanes_within B (pc_in (fst l)) k h1 h2 ->
  exists os1 os2,
    outputs (run_r (flin_step (fst l) (flin_acc_cfg (fst l) None (snd l))) (flin_init (fst l)) (no_args h1)) = Some os1 /\
    outputs (run_r (flin_step (fst l) (flin_acc_cfg (fst l) None (snd l))) (flin_init (fst l)) (no_args h2)) = Some os2 /\
    length os1 = length h1 /\ length os2 = length h2 /\
    Forall (batch_ok B (pc_out (fst l))) os1 /\ Forall (batch_ok B (pc_out (fst l))) os2 /\
    lanes_within B (pc_out (fst l)) (fun b _ => (zsum (map (k b) (seq 0 (pc_in (fst l)))) + flin_entry (fst l) - 1) / flin_entry (fst l)) os1 os2.
Proof.
  intros [c d] B h1 h2 k (Sh & Hr & Hw & He & Hd) HB H1 H2 EL Hx. cbn [fst snd] in *.
  destruct (flin_rate c d B h1 Sh Hr Hw HB He Hd H1) as (os1 & E1 & L1 & Sh1 & _).
  destruct (flin_rate c d B h2 Sh Hr Hw HB He Hd H2) as (os2 & E2 & L2 & Sh2 & _).
  exists os1, os2. split; [exact E1|]. split; [exact E2|]. split; [exact L1|]. split; [exact L2|]. split; [exact Sh1|]. split; [exact Sh2|].
  intros b o Hbb Ho t.
  destruct (flin_rate c d B (firstn t h1) Sh Hr Hw HB He Hd (BaseLemmas.Forall_firstn _ _ _ H1)) as (p1 & F1 & _ & _ & G1).
  destruct (flin_rate c d B (firstn t h2) Sh Hr Hw HB He Hd (BaseLemmas.Forall_firstn _ _ _ H2)) as (p2 & F2 & _ & _ & G2).
  rewrite <- no_args_firstn in F1, F2. rewrite (run_r_firstn _ t _ _ _ E1) in F1. rewrite (run_r_firstn _ t _ _ _ E2) in F2.
  injection F1 as <-. injection F2 as <-. specialize (G1 b o Hbb Ho). specialize (G2 b o Hbb Ho).
  rewrite LinearProof.lane_firstn in G1, G2. rewrite G1, G2. clear G1 G2.
  assert (Ent : Z.of_nat (pc_in c) + match pc_bias c with None => 0 | Some _ => 1 end = flin_entry c) by (unfold flin_entry; destruct (pc_bias c); reflexivity).
  rewrite !Ent. apply div_gap; [exact He|].
  assert (Lt : length (firstn t h1) = length (firstn t h2)) by (rewrite !firstn_length, EL; reflexivity). rewrite Lt.
  match goal with |- Z.abs (?x + ?u - (?y + ?u)) <= _ => replace (x + u - (y + u)) with (x - y) by lia end.
  apply zsum_abs_le. intros i Hi. apply in_seq in Hi. rewrite !LinearProof.lane_firstn.
  assert (B1 : bits (lane h1 b i)) by (apply (LinearProof.lane_bits B (pc_in c)); [exact H1|exact Hbb|lia]).
  assert (B2 : bits (lane h2 b i)) by (apply (LinearProof.lane_bits B (pc_in c)); [exact H2|exact Hbb|lia]).
  eapply Z.le_trans; [apply mul_pair|apply Hx; [exact Hbb|lia]]; try exact Hr; try (apply BaseLemmas.Forall_firstn; assumption).
  rewrite !firstn_length, !LinearProof.lane_length, EL. reflexivity.
Qed.

Lemma zsum_const (k : Z) n : zsum (map (fun _ : nat => k) (seq 0 n)) = Z.of_nat n * k.
Proof. induction n as [|n IH]; [reflexivity|]. rewrite seq_S, map_app, zsum_app, IH. cbn [map zsum]. lia. Qed.

Theorem net_faults : forall ls, Forall sound ls -> forall n B h1 h2 k, fitted n ls -> (1 <= B)%nat -> 0 <= k ->
  Forall (batch_ok B n) h1 -> Forall (batch_ok B n) h2 -> length h1 = length h2 -> lanes_within B n (fun _ _ => k) h1 h2 ->
  exists os1 os2,
    outputs (run_r (net_step (map plain ls)) (net_init (map plain ls)) h1) = Some os1 /\
    outputs (run_r (net_step (map plain ls)) (net_init (map plain ls)) h2) = Some os2 /\
    length os1 = length h1 /\ length os2 = length h2 /\
    lanes_within B (width_out n ls) (fun _ _ => k) os1 os2.
Proof.
  induction 1 as [|l ls Hl Hls IH]; intros n B h1 h2 k F HB Hk H1 H2 EL Hx.
  - exists h1, h2. cbn [map]. split; [apply net_nil_run|]. split; [apply net_nil_run|]. split; [reflexivity|]. split; [reflexivity|]. exact Hx.
  - cbn [fitted] in F. destruct F as (S1 & I1 & F). subst n.
    destruct (linear_faults l B h1 h2 (fun _ _ => k) Hl HB H1 H2 EL Hx) as (m1 & m2 & E1 & E2 & L1 & L2 & Sh1 & Sh2 & Hm).
    assert (Hm' : lanes_within B (pc_out (fst l)) (fun _ _ => k) m1 m2).
    { intros b o Hb Ho t. eapply Z.le_trans; [apply (Hm b o Hb Ho t)|]. rewrite zsum_const. destruct Hl as (_ & _ & _ & He & _).
      apply Z.lt_succ_r. apply Z.div_lt_upper_bound; [exact He|]. unfold flin_entry in *. destruct (pc_bias (fst l)); nia. }
    destruct (IH _ B m1 m2 k F HB Hk Sh1 Sh2 ltac:(congruence) Hm') as (os1 & os2 & R1 & R2 & K1 & K2 & Ho).
    exists os1, os2. cbn [map]. unfold net_init. cbn [map]. split; [exact (net_run _ _ _ _ _ _ _ _ E1 R1)|]. split; [exact (net_run _ _ _ _ _ _ _ _ E2 R2)|].
    split; [congruence|]. split; [congruence|]. exact Ho.
Qed.

(** ** ReLU and hard sigmoid *)
Lemma join_le : forall xs ys, length xs = length ys -> bits xs -> bits ys ->
  bits (map2 Z.max xs ys) /\ bits_le xs (map2 Z.max xs ys) /\ bits_le ys (map2 Z.max xs ys) /\
  ones (map2 Z.max xs ys) - ones xs <= flips xs ys /\ ones (map2 Z.max xs ys) - ones ys <= flips xs ys.
Proof.
  induction xs as [|x xs IH]; intros [|y ys] L Hx Hy; try discriminate.
  - cbn. split; [constructor|]. split; [constructor|]. split; [constructor|]. lia.
  - inversion Hx; inversion Hy; subst. destruct (IH ys ltac:(cbn in L; lia) ltac:(assumption) ltac:(assumption)) as (I1 & I2 & I3 & I4 & I5).
    cbn [map2]. assert (Bm : bit (Z.max x y)) by (unfold bit in *; lia).
    split; [constructor; assumption|]. split; [constructor; [lia|assumption]|]. split; [constructor; [lia|assumption]|].
    rewrite !ones_bit by assumption. rewrite flips_cons. destruct (Z.eqb_spec x y); cbn [negb b2z]; unfold bit in *; lia.
Qed.
Lemma map2_firstn {A B C} (f : A -> B -> C) t : forall xs ys, firstn t (map2 f xs ys) = map2 f (firstn t xs) (firstn t ys).
Proof. induction t as [|t IH]; intros xs ys; [reflexivity|]. destruct xs, ys; cbn [firstn map2]; try reflexivity. f_equal. apply IH. Qed.
Theorem relu_faults : forall d xs ys, bits xs -> bits ys -> length xs = length ys ->
  within (flips xs ys) (outs (fsurelu_step d) (fsurelu_init d) xs) (outs (fsurelu_step d) (fsurelu_init d) ys).
Proof.
  intros d xs ys Hx Hy L t. rewrite <- !BaseLemmas.outs_firstn. eapply Z.le_trans; [|apply (flips_firstn xs ys t)].
  assert (Hx' : bits (firstn t xs)) by (apply BaseLemmas.Forall_firstn, Hx). assert (Hy' : bits (firstn t ys)) by (apply BaseLemmas.Forall_firstn, Hy).
  assert (L' : length (firstn t xs) = length (firstn t ys)) by (rewrite !firstn_length, L; reflexivity).
  generalize dependent (firstn t xs). generalize dependent (firstn t ys). clear xs ys Hx Hy L t. intros ys Hy xs Hx L.
  destruct (join_le xs ys L Hx Hy) as (J & J1 & J2 & J3 & J4).
  pose proof (relu_mono d xs _ Hx J J1 (length xs)) as M1. pose proof (relu_mono d ys _ Hy J J2 (length ys)) as M2.
  rewrite outs_length in M1, M2. specialize (M1 (Nat.le_refl _)). specialize (M2 (Nat.le_refl _)).
  assert (Lj : length (map2 Z.max xs ys) = length xs) by (clear -L; revert ys L; induction xs; intros [|y ys] L; try discriminate; cbn in *; auto).
  rewrite !firstn_all2 in M1 by (rewrite ?outs_length; lia). rewrite !firstn_all2 in M2 by (rewrite ?outs_length; lia). lia.
Qed.
Theorem sigmoid_faults : forall m d k xs ys, 4 <= d -> bits xs -> bits ys -> length xs = length ys -> within k xs ys ->
  within ((k + 1) / 2) (outs (fsuhardsigmoid_step m d) (fsuhardsigmoid_init m d) xs) (outs (fsuhardsigmoid_step m d) (fsuhardsigmoid_init m d) ys).
Proof.
  intros m d k xs ys Hd Hx Hy EL H t. rewrite <- !BaseLemmas.outs_firstn. specialize (H t).
  rewrite !hardsigmoid_exact by (try exact Hd; apply BaseLemmas.Forall_firstn; assumption).
  assert (E : zlen (firstn t ys) = zlen (firstn t xs)) by (unfold zlen; rewrite !firstn_length, EL; reflexivity). rewrite E.
  generalize dependent (ones (firstn t xs)). generalize dependent (ones (firstn t ys)). generalize (zlen (firstn t xs)). intros. lia.
Qed.

(** ** Division remembers *)
Definition one_quotient (d : Z) (L : nat) : list (Z * Z) := (d, 1) :: repeat (0, 0) L.
Lemma one_quotient_bits d L : bit d -> Forall bitpair (one_quotient d L).
Proof.
  intros H. constructor; [split; [exact H|right; reflexivity]|]. apply Forall_forall. intros p Hp. apply repeat_spec in Hp. subst p. split; left; reflexivity.
Qed.
Lemma recent_one n d : (0 < n)%nat -> recent n [d] = tl (alternating n) ++ [d].
Proof.
  intros Hn. unfold recent, lastn, alternating. rewrite app_length, map_length, seq_length. cbn [length]. replace (n + 1 - n)%nat with 1%nat by lia.
  destruct n as [|n]; [lia|]. reflexivity.
Qed.
Lemma udiv_one c w d q : fd_mode c = Unipolar -> fd_entry c = (2 ^ w)%nat -> perm_seq w (fd_rng c) -> bit d ->
  exists st o, run_r (fsudiv_step c) (fsudiv_init c) (one_quotient d (q * 2 ^ w)) = Ok (st, o) /\
    ones o = d + Z.of_nat q * (ones (tl (alternating (2 ^ w))) + d).
Proof.
  intros Hm He Hr Hd. pose proof (perm_seq_index w _ Hr) as Hi. set (h := one_quotient d (q * 2 ^ w)).
  pose proof (one_quotient_bits d (q * 2 ^ w) Hd) as Hb. fold h in Hb.
  destruct (fsudiv_uni_run c w h Hm He Hi) as (st1 & E1).
  destruct (udiv_zeros c w h Hm He Hr Hb) as (st & o & E & Lo & Z0). exists st, o. split; [exact E|].
  rewrite E in E1. injection E1 as _ Eo.
  assert (Lh : length h = S (q * 2 ^ w)) by (unfold h, one_quotient; cbn [length]; rewrite repeat_length; reflexivity).
  destruct o as [|o0 o]; [cbn [length] in Lo; lia|].
  assert (E0 : o0 = d).
  { assert (N : nth 0 (udiv_out c h) 0 = d).
    { unfold udiv_out. rewrite He, (cordiv_out w) by (try apply Hi; rewrite outs_length; lia).
      rewrite (outs_nth _ _ _ _ (0, 0)) by lia. unfold h, one_quotient. cbn [firstn nth]. unfold final, run, skewedsync_init, skewedsync_step. cbn [fst snd].
      destruct Hd as [->| ->]; cbn; [rewrite Z.mul_0_r; reflexivity|reflexivity]. }
    rewrite <- Eo in N. exact N. }
  specialize (Z0 1%nat (q * 2 ^ w)%nat ltac:(lia)). cbv zeta in Z0.
  destruct Z0 as [_ Z0].
  { intros k Hk. unfold h, one_quotient. destruct k as [|k]; [lia|]. cbn [nth]. rewrite nth_repeat. reflexivity. }
  specialize (Z0 q eq_refl). cbn [skipn] in Z0. rewrite firstn_all2 in Z0 by (cbn [length] in Lo; lia).
  unfold h, one_quotient in Z0. cbn [firstn map fst snd combine] in Z0. unfold at_ones in Z0. cbn [filter snd Z.eqb map fst] in Z0.
  pose proof (Nat.pow_nonzero 2 w ltac:(lia)) as Hn. subst o0. cbn [Pos.eqb map fst] in Z0. rewrite recent_one, ones_app in Z0 by lia.
  rewrite ones_bit by exact Hd. rewrite Z0. rewrite ones_bit by exact Hd. change (ones []) with 0. lia.
Qed.
Theorem division_fault : forall c w n, fd_mode c = Unipolar -> fd_entry c = (2 ^ w)%nat -> perm_seq w (fd_rng c) ->
  exists h1 h2 st1 o1 st2 o2, Forall bitpair h1 /\ Forall bitpair h2 /\ length h1 = length h2 /\
    flips (map fst h1) (map fst h2) = 1 /\ map snd h1 = map snd h2 /\
    run_r (fsudiv_step c) (fsudiv_init c) h1 = Ok (st1, o1) /\ run_r (fsudiv_step c) (fsudiv_init c) h2 = Ok (st2, o2) /\
    ones o2 = ones o1 + 1 + Z.of_nat n.
Proof.
  intros c w n Hm He Hr. destruct (udiv_one c w 0 n Hm He Hr ltac:(left; reflexivity)) as (st1 & o1 & E1 & H1).
  destruct (udiv_one c w 1 n Hm He Hr ltac:(right; reflexivity)) as (st2 & o2 & E2 & H2).
  exists (one_quotient 0 (n * 2 ^ w)), (one_quotient 1 (n * 2 ^ w)), st1, o1, st2, o2.
  split; [apply one_quotient_bits; left; reflexivity|]. split; [apply one_quotient_bits; right; reflexivity|].
  split; [reflexivity|]. split.
  { unfold one_quotient. cbn [map fst]. rewrite flips_cons. cbn [Z.eqb negb b2z].
    assert (F : forall l, flips l l = 0) by (induction l as [|x l IH]; [reflexivity|]; rewrite flips_cons, IH, Z.eqb_refl; reflexivity). rewrite F. reflexivity. }
  split; [reflexivity|]. split; [exact E1|]. split; [exact E2|]. lia.
Qed.
