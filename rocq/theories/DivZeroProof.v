(** Proofs for C98: what division emits while the divisor is 0. *)
Require Import Verif.BaseLemmas Verif.GenModel Verif.GenProof Verif.ShuffleModel Verif.ShuffleProof Verif.AddModel Verif.KernelModel Verif.DivModel
  Verif.DivProof Verif.SobolProof Verif.SqrtEmitSpec.
From Coq Require Import Lia Permutation.
Open Scope Z_scope.

Fixpoint wsum (f : nat -> Z) (a L : nat) : Z := match L with O => 0 | S L => wsum f a L + f (a + L)%nat end.

Lemma wsum_add f a L M : wsum f a (L + M) = wsum f a L + wsum f (a + L) M.
Proof. induction M as [|M IH]; [rewrite Nat.add_0_r; cbn; lia|]. rewrite Nat.add_succ_r. cbn [wsum]. rewrite IH, Nat.add_assoc. lia. Qed.
Lemma wsum_ext f g a L : (forall i, (i < L)%nat -> f (a + i)%nat = g (a + i)%nat) -> wsum f a L = wsum g a L.
Proof. induction L as [|L IH]; intros H; [reflexivity|]. cbn [wsum]. rewrite IH, H by (intros; try apply H; lia). reflexivity. Qed.
Lemma wsum_seq f : forall a L, wsum f a L = zsum (map f (seq a L)).
Proof. intros a. induction L as [|L IH]; [reflexivity|]. rewrite seq_S, map_app, zsum_app. cbn [wsum map]. rewrite IH. cbn. lia. Qed.

Section Period.
  Variables (f : nat -> Z) (n : nat) (K : Z).
  Hypothesis Hb : forall i, bit (f i).
  Hypothesis Hp : forall i, f (i + n)%nat = f i.
  Hypothesis Hn : (1 <= n)%nat.
  Hypothesis HK : wsum f 0 n = K.

  Lemma wsum_start : forall a, wsum f a n = K.
  Proof.
    induction a as [|a IH]; [exact HK|]. pose proof (wsum_add f a 1 n) as E1. pose proof (wsum_add f a n 1) as E2.
    rewrite Nat.add_comm in E1. rewrite E2, IH in E1. cbn [wsum] in E1. rewrite !Nat.add_0_r, Hp in E1.
    replace (S a) with (a + 1)%nat by lia. lia.
  Qed.
  Lemma wsum_range a L : 0 <= wsum f a L <= Z.of_nat L.
  Proof. induction L as [|L IH]; [cbn; lia|]. cbn [wsum]. pose proof (Hb (a + L)%nat) as [H|H]; rewrite H; lia. Qed.
  Lemma wsum_mult a : forall q, wsum f a (q * n) = Z.of_nat q * K.
  Proof.
    induction q as [|q IH]; [reflexivity|]. replace (S q * n)%nat with (q * n + n)%nat by lia.
    rewrite wsum_add, IH, wsum_start. lia.
  Qed.
  Lemma wsum_short a r : (r <= n)%nat -> Z.abs (Z.of_nat n * wsum f a r - Z.of_nat r * K) <= K * (Z.of_nat n - K).
  Proof.
    intros Hr. pose proof (wsum_range a r) as R1. pose proof (wsum_range (a + r) (n - r)) as R2.
    pose proof (wsum_add f a r (n - r)) as E. replace (r + (n - r))%nat with n in E by lia. rewrite wsum_start in E.
    set (u := wsum f a r) in *. set (v := wsum f (a + r) (n - r)) in *. rewrite Nat2Z.inj_sub in R2 by lia.
    set (N := Z.of_nat n) in *. set (R := Z.of_nat r) in *. assert (R <= N) by (unfold R, N; lia). subst K.
    assert (X1 : 0 <= u * (R - u)) by (apply Z.mul_nonneg_nonneg; lia). assert (X2 : 0 <= v * (R - u)) by (apply Z.mul_nonneg_nonneg; lia).
    assert (X3 : 0 <= v * (N - R - v)) by (apply Z.mul_nonneg_nonneg; lia). assert (X4 : 0 <= u * (N - R - v)) by (apply Z.mul_nonneg_nonneg; lia).
    rewrite E. clear -X1 X2 X3 X4. apply Z.abs_le. split; lia.
  Qed.
  Lemma wsum_bound a L : Z.abs (Z.of_nat n * wsum f a L - Z.of_nat L * K) <= K * (Z.of_nat n - K).
  Proof.
    pose proof (Nat.div_mod L n ltac:(lia)) as D. pose proof (Nat.mod_upper_bound L n ltac:(lia)).
    set (q := (L / n)%nat) in *. set (r := (L mod n)%nat) in *. rewrite (Nat.mul_comm n q) in D.
    pose proof (wsum_short (a + q * n) r ltac:(lia)) as S. rewrite D, wsum_add, wsum_mult.
    replace (Z.of_nat n * (Z.of_nat q * K + wsum f (a + q * n) r) - Z.of_nat (q * n + r) * K)
      with (Z.of_nat n * wsum f (a + q * n) r - Z.of_nat r * K) by (rewrite Nat2Z.inj_add, Nat2Z.inj_mul; lia). exact S.
  Qed.
End Period.

Lemma cyc_period l i : (0 < length l)%nat -> cyc l (i + length l) = cyc l i.
Proof.
  intros H. unfold cyc. f_equal. rewrite <- (Nat.mul_1_l (length l)) at 1. apply Nat.mod_add. lia.
Qed.

Lemma zsum_perm l l' : Permutation l l' -> zsum l = zsum l'.
Proof. induction 1; cbn in *; lia. Qed.

Lemma sample_all w rng R : perm_seq w rng -> length R = (2 ^ w)%nat ->
  wsum (fun i => nth (Z.to_nat (cyc rng i)) R 0) 0 (2 ^ w) = zsum R.
Proof.
  intros Hr HR. pose proof (perm_seq_len w rng Hr) as L. rewrite wsum_seq.
  rewrite (map_ext_in _ (fun i => (fun z => nth (Z.to_nat z) R 0) (nth i rng 0))).
  2:{ intros i Hi. apply in_seq in Hi. unfold cyc. rewrite Nat.mod_small by lia. reflexivity. }
  rewrite <- (map_map (fun i => nth i rng 0) (fun z => nth (Z.to_nat z) R 0)). rewrite <- L, map_nth_id.
  assert (P : Permutation (map (fun z => nth (Z.to_nat z) R 0) rng) (map (fun z => nth (Z.to_nat z) R 0) (zrange (2 ^ w))))
    by (apply Permutation_map, Hr).
  rewrite (zsum_perm _ _ P). unfold zrange. rewrite map_map.
  rewrite (map_ext _ (fun i => nth i R 0)) by (intros i; rewrite Nat2Z.id; reflexivity).
  rewrite <- HR, map_nth_id. reflexivity.
Qed.

Lemma at_ones_still (sy : list (Z * Z)) a : forall d, (a + d <= length sy)%nat -> (forall k, (a <= k < a + d)%nat -> snd (nth k sy (0, 0)) = 0) ->
  at_ones (firstn (a + d) sy) = at_ones (firstn a sy).
Proof.
  induction d as [|d IH]; intros Hd H; [rewrite Nat.add_0_r; reflexivity|].
  rewrite Nat.add_succ_r, (firstn_S_nth sy (a + d) (0, 0)) by lia. rewrite at_ones_snoc, H by lia. cbn [Z.eqb].
  rewrite app_nil_r. apply IH; [lia|]. intros k Hk. apply H. lia.
Qed.

Lemma ones_window l a : bits l -> forall L, (a + L <= length l)%nat -> ones (firstn L (skipn a l)) = wsum (fun i => nth i l 0) a L.
Proof.
  intros Hb. induction L as [|L IH]; intros H; [reflexivity|]. cbn [wsum]. rewrite <- IH by lia.
  rewrite (firstn_S_nth (skipn a l) L 0) by (rewrite skipn_length; lia).
  assert (E : nth L (skipn a l) 0 = nth (a + L) l 0).
  { clear. revert l. induction a as [|a IHa]; intros l; [reflexivity|]. destruct l as [|x l]; [destruct L; reflexivity|]. apply IHa. }
  rewrite E. apply ones_snoc. unfold bits in Hb. rewrite Forall_forall in Hb. apply Hb, nth_In. lia.
Qed.

Theorem udiv_zeros : forall c w h, fd_mode c = Unipolar -> fd_entry c = (2 ^ w)%nat -> perm_seq w (fd_rng c) -> Forall bitpair h ->
  exists st o, run_r (fsudiv_step c) (fsudiv_init c) h = Ok (st, o) /\ length o = length h /\
  forall a L, (a + L <= length h)%nat -> (forall k, (a <= k < a + L)%nat -> snd (nth k h (0, 0)) = 0) ->
    let K := ones (recent (2 ^ w) (at_ones (combine (firstn a o) (map snd (firstn a h))))) in
    let got := ones (firstn L (skipn a o)) in
    Z.abs (p2 w * got - Z.of_nat L * K) <= K * (p2 w - K) /\
    (forall q, L = (q * 2 ^ w)%nat -> got = Z.of_nat q * K).
Proof.
  intros c w h Hm He Hr Hb. pose proof (perm_seq_index w _ Hr) as Hi.
  destruct (fsudiv_uni_run c w h Hm He Hi) as (st & E). exists st, (udiv_out c h). split; [exact E|].
  split; [apply udiv_out_length|]. intros a L Ha Hz K got.
  pose proof (udiv_bits c w h He Hi Hb) as Bo.
  destruct (skewed_inv (fd_depth_ss c) h Hb) as (_ & Bs & Es & _). cbv zeta in Bs, Es.
  set (sy := outs (skewedsync_step (fd_depth_ss c)) skewedsync_init h) in *.
  assert (Ls : length sy = length h) by apply outs_length.
  set (R := recent (2 ^ w) (at_ones (firstn a sy))).
  assert (EK : K = ones R).
  { unfold K, R, sy. rewrite <- outs_firstn_all, <- (udiv_at_ones c w (firstn a h) He Hi). do 4 f_equal.
    unfold udiv_out. rewrite !outs_firstn_all. reflexivity. }
  assert (BR : bits R).
  { apply recent_bits. unfold at_ones, bits. apply Forall_forall. intros x Hx. apply in_map_iff in Hx. destruct Hx as (p & <- & Hp).
    apply filter_In in Hp. destruct Hp as [Hp _]. rewrite Forall_forall in Bs. apply Bs. rewrite <- (firstn_skipn a sy). apply in_or_app. left. exact Hp. }
  pose proof (Nat.pow_nonzero 2 w ltac:(lia)) as Hn.
  set (f := fun i => nth (Z.to_nat (cyc (fd_rng c) i)) R 0).
  pose proof (perm_seq_len w _ Hr) as Lr.
  assert (Hf : forall i, bit (f i)).
  { intros i. unfold f. destruct (Nat.lt_ge_cases (Z.to_nat (cyc (fd_rng c) i)) (length R)) as [G|G].
    - unfold bits in BR. rewrite Forall_forall in BR. apply BR, nth_In, G.
    - rewrite nth_overflow by exact G. left. reflexivity. }
  assert (Hp : forall i, f (i + 2 ^ w)%nat = f i).
  { intros i. unfold f. rewrite <- Lr at 1. rewrite cyc_period by lia. reflexivity. }
  assert (HK : wsum f 0 (2 ^ w) = K).
  { rewrite EK, <- (zsum_ones R BR). apply (sample_all w); [exact Hr|]. unfold R. apply recent_length. }
  assert (G : got = wsum f a L).
  { unfold got. rewrite ones_window by (try exact Bo; rewrite udiv_out_length; exact Ha). apply wsum_ext. intros i Hi'.
    unfold udiv_out. rewrite He. fold sy. rewrite cordiv_out by (try exact Lr; lia).
    assert (Hs : forall k, (k < length h)%nat -> snd (nth k sy (0, 0)) = snd (nth k h (0, 0))).
    { intros k Hk. rewrite <- !nth_map_snd, Es. reflexivity. }
    rewrite Hs, Hz by lia. cbn [Z.eqb]. unfold f, R. rewrite at_ones_still; [reflexivity|lia|].
    intros k Hk. rewrite Hs, Hz by lia. reflexivity. }
  rewrite G. split.
  - rewrite <- p2_nat. apply (wsum_bound f (2 ^ w) K Hf Hp ltac:(lia) HK).
  - intros q ->. apply (wsum_mult f (2 ^ w) K Hf Hp ltac:(lia) HK).
Qed.

(** ** A repeating pair of streams that is divided wrongly *)

Lemma sobol2 ext d : dirvec_ok 30 (ext_dirvec ext d) ->
  rng_seq ext KSobol 2 d = [0; 2; 3; 1] \/ rng_seq ext KSobol 2 d = [0; 2; 1; 3].
Proof.
  intros H. destruct (H 0%nat ltac:(lia)) as (m0 & E0 & _ & R0). destruct (H 1%nat ltac:(lia)) as (m1 & E1 & O1 & R1).
  change (p2 1) with 2 in R0. change (p2 2) with 4 in R1. assert (m0 = 1) by lia. subst m0.
  assert (C : m1 = 1 \/ m1 = 2 \/ m1 = 3) by lia.
  rewrite rng_sobol by (unfold sobol_maxbit; lia). unfold sobw, sobol_maxbit. cbn [Nat.pow Nat.mul Nat.add seq map sob].
  change (lsz (N.of_nat 0)) with 0%nat. change (lsz (N.of_nat 1)) with 1%nat. change (lsz (N.of_nat 2)) with 0%nat. rewrite E0, E1.
  destruct C as [->|[->| ->]]; [left|discriminate O1|right]; vm_compute; reflexivity.
Qed.

Lemma unlucky_sync depth : forall p, final (skewedsync_step depth) 0 (again p unlucky) = 0 /\
  outs (skewedsync_step depth) 0 (again p unlucky) = again p unlucky.
Proof.
  assert (E : final (skewedsync_step depth) 0 unlucky = 0 /\ outs (skewedsync_step depth) 0 unlucky = unlucky).
  { pose proof (p2_ge_1 depth) as P.
    assert (S1 : skewedsync_step depth 0 (1, 1) = (0, (1, 1))).
    { unfold skewedsync_step, zclamp. cbn. f_equal. lia. }
    assert (S2 : skewedsync_step depth 0 (0, 1) = (0, (0, 1))).
    { unfold skewedsync_step, zclamp. cbn [Z.add Z.eqb Pos.eqb b2z negb]. f_equal; [lia|]. f_equal. lia. }
    assert (S3 : skewedsync_step depth 0 (0, 0) = (0, (0, 0))).
    { unfold skewedsync_step, zclamp. cbn. f_equal. lia. }
    unfold unlucky. rewrite !final_cons, !outs_cons, S1. cbn [fst snd]. rewrite S2. cbn [fst snd]. rewrite S3. cbn [fst snd].
    rewrite S3. split; reflexivity. }
  induction p as [|p [IH1 IH2]]; [split; reflexivity|]. cbn [again]. rewrite final_app, outs_app, IH1, IH2.
  destruct E as [-> ->]. split; reflexivity.
Qed.

Lemma unlucky_kernel rng : rng = [0; 2; 3; 1] \/ rng = [0; 2; 1; 3] -> forall p,
  (exists s0 s1, final (cordiv_tot 4 rng) (cordiv_init 4) (again (S p) unlucky) = {| cd_sr := [s0; s1; 1; 0]; cd_idx := 4 * Z.of_nat (S p) |}) /\
  ones (outs (cordiv_tot 4 rng) (cordiv_init 4) (again (S p) unlucky)) = Z.of_nat (S p) + 1.
Proof.
  intros Hr. induction p as [|p [(s0 & s1 & IH1) IH2]].
  - destruct Hr as [->| ->]; (split; [do 2 eexists; vm_compute; reflexivity|vm_compute; reflexivity]).
  - change (again (S (S p)) unlucky) with (again (S p) unlucky ++ unlucky). rewrite final_app, outs_app, ones_app, IH1, IH2.
    set (z := Z.of_nat (S p)). replace (Z.of_nat (S (S p))) with (z + 1) by (unfold z; lia).
    assert (M0 : (4 * z) mod 4 = 0) by lia. assert (M1 : (4 * z + 1) mod 4 = 1) by lia.
    assert (M2 : (4 * z + 1 + 1) mod 4 = 2) by lia. assert (M3 : (4 * z + 1 + 1 + 1) mod 4 = 3) by lia.
    unfold unlucky. rewrite !final_cons, !outs_cons. unfold cordiv_tot. cbn [cd_idx fst snd]. change (Z.of_nat 4) with 4.
    rewrite M0, M1, M2, M3. replace (4 * (z + 1)) with (4 * z + 1 + 1 + 1 + 1) by lia.
    generalize (4 * z + 1 + 1 + 1 + 1). intros i.
    destruct Hr as [->| ->]; (split; [exists 1, 0; reflexivity|]);
      match goal with |- _ + ?a = _ => let v := eval vm_compute in a in change a with v end; lia.
Qed.

Theorem udiv_unlucky : forall c ext d p, fd_mode c = Unipolar -> fd_entry c = 4%nat -> fd_rng c = rng_seq ext KSobol 2 d ->
  dirvec_ok 30 (ext_dirvec ext d) -> let h := again (S p) unlucky in
  exists st o, run_r (fsudiv_step c) (fsudiv_init c) h = Ok (st, o) /\ zlen h = 4 * Z.of_nat (S p) /\ length o = length h /\
    ones (map snd h) = 2 * Z.of_nat (S p) /\ ones (map fst h) = Z.of_nat (S p) /\ ones o = Z.of_nat (S p) + 1.
Proof.
  intros c ext d p Hm He Hr Hd h. pose proof (sobol2 ext d Hd) as Hs. rewrite <- Hr in Hs.
  assert (Hi : index_seq 2 (fd_rng c)).
  { destruct Hs as [->| ->]; (split; [reflexivity|]); repeat constructor; change (p2 2) with 4; lia. }
  destruct (fsudiv_uni_run c 2 h Hm He Hi) as (st & E). exists st, (udiv_out c h). split; [exact E|].
  assert (C : forall q, zlen (again q unlucky) = 4 * Z.of_nat q /\ ones (map snd (again q unlucky)) = 2 * Z.of_nat q /\
    ones (map fst (again q unlucky)) = Z.of_nat q).
  { induction q as [|q (I1 & I2 & I3)]; [repeat split|]. cbn [again]. rewrite zlen_app, !map_app, !ones_app, I1, I2, I3.
    change (zlen unlucky) with 4. change (ones (map snd unlucky)) with 2. change (ones (map fst unlucky)) with 1. lia. }
  destruct (C (S p)) as (C1 & C2 & C3). split; [exact C1|]. split; [apply udiv_out_length|]. split; [exact C2|]. split; [exact C3|].
  unfold udiv_out. rewrite He. destruct (unlucky_sync (fd_depth_ss c) (S p)) as [_ U]. unfold h, skewedsync_init. rewrite U.
  exact (proj2 (unlucky_kernel (fd_rng c) Hs p)).
Qed.
