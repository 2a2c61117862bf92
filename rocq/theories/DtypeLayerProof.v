(** Proofs about generators, parallel counters and adders in the element types of torch. *)
From Coq Require Import Lia ZifyBool Lqa.
Require Import Verif.BaseLemmas Verif.GenProof Verif.AddProof Verif.LinearProof Verif.ConvProof.
Require Export Verif.DtypeSpec Verif.DtypeProof.
Open Scope Z_scope.

(** ** BinGen, RNG and BSGen *)
Lemma nthZ_map f l i : 0 <= i < zlen l -> nthZ (map f l) i = f (nthZ l i).
Proof.
  intros H. unfold nthZ, zlen in *. rewrite (nth_indep _ 0 (f 0)) by (rewrite map_length; lia). apply map_nth.
Qed.
Lemma perm_val w rng i : perm_seq w rng -> 0 <= i < zlen rng -> 0 <= nthZ rng i < p2 w.
Proof.
  intros P H. assert (I : In (nthZ rng i) rng) by (apply nth_In; unfold zlen in H; lia).
  apply (Permutation_in _ P) in I. unfold zrange in I. apply in_map_iff in I. destruct I as (k & <- & I).
  apply in_seq in I. rewrite <- p2_nat. lia.
Qed.
Lemma perm_zlen w rng : perm_seq w rng -> zlen rng = p2 w.
Proof. intros P. unfold zlen. rewrite (Permutation_length P). unfold zrange. rewrite map_length, seq_length. apply p2_nat. Qed.
Lemma perm_index w rng v : perm_seq w rng -> 0 <= v < p2 w -> exists i, 0 <= i < zlen rng /\ nthZ rng i = v.
Proof.
  intros P H. assert (I : In v rng).
  { apply (Permutation_in _ (Permutation_sym P)). unfold zrange. apply in_map_iff. exists (Z.to_nat v). split; [lia|].
    apply in_seq. rewrite <- p2_nat in H. lia. }
  apply (In_nth _ _ 0) in I. destruct I as (k & Hk & E). exists (Z.of_nat k). unfold zlen, nthZ. rewrite Nat2Z.id. split; [lia|assumption].
Qed.

Lemma bsgen_dt_exact rt w rng B start n : wf_dtype rt -> (w <= room0 rt)%nat -> perm_seq w rng -> 0 <= B <= p2 w ->
  bsgen_stream (cast rt B) (map (cast rt) rng) start n = bsgen_stream B rng start n.
Proof.
  intros W L P HB. unfold bsgen_stream. apply map_ext. intros k. unfold bsgen_bit.
  assert (ZL : zlen (map (cast rt) rng) = zlen rng) by (unfold zlen; rewrite map_length; reflexivity). rewrite ZL.
  pose proof (perm_zlen w rng P) as PL. pose proof (p2_pos w).
  set (i := (start + Z.of_nat k) mod zlen rng). assert (Hi : 0 <= i < zlen rng) by (apply Z.mod_pos_bound; lia).
  rewrite nthZ_map by assumption. pose proof (perm_val w rng i P Hi).
  rewrite !(room0_exact rt w) by (assumption || lia). reflexivity.
Qed.

Lemma grid_src m w B : 0 <= B <= p2 w -> src_ok m (grid_value m w B).
Proof.
  intros H. pose proof (p2_pos w) as P.
  assert (A : (0 <= inject_Z B / inject_Z (p2 w) /\ inject_Z B / inject_Z (p2 w) <= 1)%Q).
  { assert (PQ : (0 < inject_Z (p2 w))%Q) by (change 0%Q with (inject_Z 0); rewrite <- Zlt_Qlt; exact P). split.
    - apply Qle_shift_div_l; [exact PQ|]. rewrite Qmult_0_l. change 0%Q with (inject_Z 0). rewrite <- Zle_Qle. lia.
    - apply Qle_shift_div_r; [exact PQ|]. rewrite Qmult_1_l. rewrite <- Zle_Qle. lia. }
  destruct m; unfold grid_value, src_ok; [exact A|]. split; Lqa.lra.
Qed.

(** A source whose stream is wrong in a type that is too narrow. *)
Definition bad_source (rt : dtype) : Z :=
  match rt with SInt b => p2 (b - 1) | UInt b => p2 b | Flt p _ => p2 p + 1 end.
Definition bad_value (rt : dtype) : Z := match rt with Flt p _ => p2 p | _ => 0 end.
Lemma bad_bit rt : wf_dtype rt -> bad_value rt < bad_source rt /\ cast rt (bad_source rt) <= cast rt (bad_value rt).
Proof.
  destruct rt as [b|b|p emax]; cbn [wf_dtype bad_value bad_source]; intros W.
  - split; [apply p2_pos|]. rewrite sint_top, (cast_0 (SInt b)) by (cbn; lia). pose proof (p2_pos (b - 1)). lia.
  - split; [apply p2_pos|]. rewrite uint_top, (cast_0 (UInt b)) by (cbn; lia). lia.
  - split; [lia|]. cbn [cast]. rewrite fl_pow_succ, fl_pow by lia. lia.
Qed.
Lemma bad_range rt w : wf_dtype rt -> (room0 rt < w)%nat -> 0 <= bad_value rt /\ bad_value rt < p2 w /\ 0 <= bad_source rt <= p2 w.
Proof.
  destruct rt as [b|b|p emax]; cbn [wf_dtype bad_value bad_source room0]; intros W L.
  - pose proof (p2_pos w). pose proof (p2_le (b - 1) w ltac:(lia)). pose proof (p2_pos (b - 1)). lia.
  - pose proof (p2_pos w). pose proof (p2_le b w ltac:(lia)). pose proof (p2_pos b). lia.
  - pose proof (p2_lt p w L). pose proof (p2_pos p). lia.
Qed.

Lemma gen_dt_iff rt w rng m : In rt torch_dtypes -> perm_seq w rng ->
  (forall s start n, src_ok m s ->
     bsgen_stream (bingen_dt rt m w s) (map (cast rt) rng) start n = bsgen_stream (bingen m w s) rng start n) <->
  (w <= room0 rt)%nat.
Proof.
  intros T P. pose proof (torch_wf _ T) as W. split.
  2:{ intros L s start n H. unfold bingen_dt. apply (bsgen_dt_exact rt w); [assumption|assumption|assumption|]. apply bingen_range. assumption. }
  intros E. destruct (le_lt_dec w (room0 rt)) as [L|G]; [assumption|exfalso].
  destruct (bad_bit rt W) as [B1 B2]. destruct (bad_range rt w W G) as (R1 & R2 & R3).
  set (s := grid_value m w (bad_source rt)).
  assert (Hs : src_ok m s).
  { unfold s. apply grid_src. assumption. }
  destruct (perm_index w rng (bad_value rt) P ltac:(lia)) as (i & Hi & Ei).
  specialize (E s i 1%nat Hs). unfold bingen_dt in E. rewrite (bingen_grid m w (bad_source rt) s) in E by reflexivity.
  unfold bsgen_stream in E. cbn [seq map] in E. apply (f_equal (fun l => nth 0 l 0)) in E. cbn [nth] in E.
  unfold bsgen_bit in E.
  assert (ZL : zlen (map (cast rt) rng) = zlen rng) by (unfold zlen; rewrite map_length; reflexivity). rewrite ZL in E.
  change (Z.of_nat 0) with 0 in E. rewrite Z.add_0_r, Z.mod_small, nthZ_map, Ei in E by assumption.
  replace (bad_source rt >? bad_value rt) with true in E by lia.
  replace (cast rt (bad_source rt) >? cast rt (bad_value rt)) with false in E by lia. discriminate E.
Qed.

(** The tie at 2^p + 1 merges two sources. *)
Lemma gen_dt_merge p emax w rng start n : (2 <= p)%nat -> (p < w)%nat ->
  bsgen_stream (cast (Flt p emax) (p2 p + 1)) (map (cast (Flt p emax)) rng) start n =
  bsgen_stream (cast (Flt p emax) (p2 p)) (map (cast (Flt p emax)) rng) start n.
Proof. intros Hp Hw. cbn [cast]. rewrite fl_pow_succ, fl_pow by lia. reflexivity. Qed.
(** The full scale of an integer type that is one bit short is silence. *)
Lemma gen_dt_silent b w rng start n : (3 <= b)%nat -> w = (b - 1)%nat -> perm_seq w rng ->
  bsgen_stream (cast (SInt b) (p2 w)) (map (cast (SInt b)) rng) start n = repeat 0 n.
Proof.
  intros Hb -> P. unfold bsgen_stream. pose proof (perm_zlen _ _ P) as PL. pose proof (p2_pos (b - 1)).
  rewrite sint_top by lia.
  assert (G : forall k0, map (fun k => bsgen_bit (- p2 (b - 1)) (map (cast (SInt b)) rng) (start + Z.of_nat k)) (seq k0 n) = repeat 0 n).
  { induction n as [|n IH]; intros k0; [reflexivity|]. cbn [seq map repeat]. rewrite IH. f_equal.
    unfold bsgen_bit. assert (ZL : zlen (map (cast (SInt b)) rng) = zlen rng) by (unfold zlen; rewrite map_length; reflexivity). rewrite ZL.
    set (i := (start + Z.of_nat k0) mod zlen rng). assert (Hi : 0 <= i < zlen rng) by (apply Z.mod_pos_bound; lia).
    rewrite nthZ_map by assumption. pose proof (perm_val _ _ i P Hi). rewrite sint_exact by lia.
    replace (- p2 (b - 1) >? nthZ rng i) with false by lia. reflexivity. }
  apply G.
Qed.

(** ** Parallel counters *)
Lemma counts_iff dt n : In dt torch_dtypes -> 0 <= n ->
  ((forall k, 0 <= k <= n -> cast dt k = k) <-> n <= max_count dt).
Proof.
  intros T Hn. pose proof (torch_wf _ T) as W. split.
  - intros E. destruct (Z_le_gt_dec n (max_count dt)) as [L|G]; [assumption|exfalso].
    destruct dt as [b|b|p emax]; cbn [max_count wf_dtype] in *.
    + rewrite p2_pow1 in G by lia. pose proof (p2_pos (b - 1)). specialize (E (p2 (b - 1)) ltac:(lia)). rewrite sint_top in E by lia. lia.
    + rewrite p2_pow in G. pose proof (p2_pos b). specialize (E (p2 b) ltac:(lia)). rewrite uint_top in E. lia.
    + rewrite p2_pow in G. pose proof (p2_pos p). specialize (E (p2 p + 1) ltac:(lia)). cbn [cast] in E. rewrite fl_pow_succ in E by lia. lia.
  - intros L k Hk. destruct dt as [b|b|p emax]; cbn [max_count wf_dtype] in *.
    + rewrite p2_pow1 in L by lia. apply sint_exact; lia.
    + rewrite p2_pow in L. apply uint_exact; lia.
    + rewrite p2_pow in L. apply fl_small; lia.
Qed.

Lemma pc_dt_run st c : forall h s,
  outputs (run_r (pc_dt_step st c) s h) = option_map (map (map (map (cast st)))) (outputs (run_r (pc_step c) s h)).
Proof.
  induction h as [|x h IH]; intros s; [reflexivity|]. cbn [run_r]. unfold pc_dt_step at 1.
  destruct (pc_step c s x) as [[s1 o]|e]; [|reflexivity]. cbn [bind fst snd]. specialize (IH s1).
  destruct (run_r (pc_dt_step st c) s1 h) as [[s2 os]|e]; destruct (run_r (pc_step c) s1 h) as [[s2' os']|e'];
    cbn [outputs option_map] in *; try discriminate; [|reflexivity].
  injection IH as ->. reflexivity.
Qed.
Lemma conv_dt_run st c : forall h s,
  outputs (run_r (conv_dt_step st c) s h) = option_map (map (map (map (map (map (cast st)))))) (outputs (run_r (conv_step c) s h)).
Proof.
  induction h as [|x h IH]; intros s; [reflexivity|]. cbn [run_r]. unfold conv_dt_step at 1.
  destruct (conv_step c s x) as [[s1 o]|e]; [|reflexivity]. cbn [bind fst snd]. specialize (IH s1).
  destruct (run_r (conv_dt_step st c) s1 h) as [[s2 os]|e]; destruct (run_r (conv_step c) s1 h) as [[s2' os']|e'];
    cbn [outputs option_map] in *; try discriminate; [|reflexivity].
  injection IH as ->. reflexivity.
Qed.

Lemma batch_map_id dt B n x hi : batch_shape B n x ->
  (forall b o, (b < B)%nat -> (o < n)%nat -> 0 <= entry2 x b o <= hi) -> (forall k, 0 <= k <= hi -> cast dt k = k) ->
  map (map (cast dt)) x = x.
Proof.
  intros [L F] E C. rewrite <- (map_id x) at 2. apply map_ext_in. intros r Hr.
  rewrite <- (map_id r) at 2. apply map_ext_in. intros v Hv.
  pose proof (proj1 (Forall_forall _ _) F r Hr) as Lr. cbn beta in Lr.
  apply (In_nth _ _ []) in Hr. destruct Hr as (b & Hb & Eb). apply (In_nth _ _ 0) in Hv. destruct Hv as (o & Ho & Eo).
  apply C. rewrite <- Eo, <- Eb. apply E; [lia|]. rewrite Lr in Ho. exact Ho.
Qed.
Lemma map_id_nth {A} (f : A -> A) d l : (forall t, (t < length l)%nat -> f (nth t l d) = nth t l d) -> map f l = l.
Proof.
  intros H. rewrite <- (map_id l) at 2. apply map_ext_in. intros a Ha. apply (In_nth _ _ d) in Ha. destruct Ha as (t & Ht & <-).
  apply H. assumption.
Qed.

(** The counts of any history, exact or not. *)
Lemma pc_counts c B h : pc_shape c -> rng_ok c -> (1 <= B)%nat -> Forall (batch_ok B (pc_in c)) h ->
  exists os, outputs (run_r (pc_step c) (pc_init c) h) = Some os /\ length os = length h /\
    forall t, (t < length h)%nat -> batch_shape B (pc_out c) (nth t os []) /\
    forall b o, (b < B)%nat -> (o < pc_out c)%nat -> 0 <= entry2 (nth t os []) b o <= flin_entry c.
Proof.
  intros Hs Hr HB Hh. destruct (pc_wtc c) eqn:E.
  - destruct (pc_temporal c B h Hs Hr E HB Hh) as (os & O & L & T). exists os. split; [exact O|]. split; [exact L|].
    intros t Ht. destruct (T t Ht) as [T1 T2]. split; [exact T1|]. intros b o Hb Ho. apply (T2 b o Hb Ho).
  - destruct (pc_rate c B h Hs Hr E HB Hh) as (os & O & L & T). exists os. split; [exact O|]. split; [exact L|].
    intros t Ht. destruct (T t Ht) as [T1 T2]. split; [exact T1|]. intros b o Hb Ho. apply (T2 b o Hb Ho).
Qed.

Lemma pc_dt_exact st c B h : In st torch_dtypes -> flin_entry c <= max_count st ->
  pc_shape c -> rng_ok c -> (1 <= B)%nat -> Forall (batch_ok B (pc_in c)) h ->
  outputs (run_r (pc_dt_step st c) (pc_init c) h) = outputs (run_r (pc_step c) (pc_init c) h).
Proof.
  intros T M Hs Hr HB Hh. rewrite pc_dt_run. destruct (pc_counts c B h Hs Hr HB Hh) as (os & -> & L & C). cbn [option_map]. f_equal.
  assert (N : 0 <= flin_entry c) by (unfold flin_entry; destruct (pc_bias c); lia).
  pose proof (proj2 (counts_iff st (flin_entry c) T N) M) as CE.
  apply (map_id_nth _ []). intros t Ht. destruct (C t ltac:(lia)) as [C1 C2]. exact (batch_map_id st B (pc_out c) _ (flin_entry c) C1 C2 CE).
Qed.

Lemma tensor_map_id dt (P : Z -> Prop) N C H W x : tensor_ok P N C H W x -> (forall k, P k -> cast dt k = k) ->
  map (map (map (map (cast dt)))) x = x.
Proof.
  intros [_ F] CE. rewrite <- (map_id x) at 2. apply map_ext_in. intros img Hi.
  pose proof (proj1 (Forall_forall _ _) F img Hi) as [_ F1]. rewrite <- (map_id img) at 2. apply map_ext_in. intros ch Hc.
  pose proof (proj1 (Forall_forall _ _) F1 ch Hc) as [_ F2]. rewrite <- (map_id ch) at 2. apply map_ext_in. intros row Hw.
  pose proof (proj1 (Forall_forall _ _) F2 row Hw) as [_ F3]. rewrite <- (map_id row) at 2. apply map_ext_in. intros v Hv.
  apply CE. exact (proj1 (Forall_forall _ _) F3 v Hv).
Qed.

Lemma conv_dt_exact st c p N H W ho wo h : In st torch_dtypes -> flin_entry (cv_pc c) <= max_count st ->
  conv_geom c p H W ho wo -> (1 <= N)%nat -> Forall (tensor_ok bit N (cv_chan c) H W) h ->
  outputs (run_r (conv_dt_step st c) (conv_init c) h) = outputs (run_r (conv_step c) (conv_init c) h).
Proof.
  intros T M G HN Hh. rewrite conv_dt_run. destruct (conv_windows c p N H W ho wo h G HN Hh) as (g & ys & os & _ & _ & _ & _ & O & L & C).
  rewrite O. cbn [option_map]. f_equal.
  assert (NN : 0 <= flin_entry (cv_pc c)) by (unfold flin_entry; destruct (pc_bias (cv_pc c)); lia).
  pose proof (proj2 (counts_iff st _ T NN) M) as CE.
  apply (map_id_nth _ []). intros t Ht. destruct (C t ltac:(lia)) as [C1 _]. exact (tensor_map_id st _ _ _ _ _ _ C1 CE).
Qed.

Lemma bsgen_above B rng k : (0 < length rng)%nat -> (forall v, In v rng -> v < B) -> bsgen_bit B rng k = 1.
Proof.
  intros L A. unfold bsgen_bit. assert (H : 0 <= k mod zlen rng < zlen rng) by (apply Z.mod_pos_bound; unfold zlen; lia).
  set (i := k mod zlen rng) in *. clearbody i. assert (V : nthZ rng i < B) by (apply A; apply nth_In; unfold zlen in H; lia).
  replace (B >? _) with true by lia. reflexivity.
Qed.
Lemma zsum_tab_ones n f : (forall i, (i < n)%nat -> f i = 1) -> zsum (tab n f) = Z.of_nat n.
Proof.
  induction n as [|n IH]; intros H; [reflexivity|]. rewrite tab_S, zsum_app, IH by (intros; apply H; lia). cbn [zsum].
  rewrite H by lia. lia.
Qed.

Lemma pc_full c B n : pc_shape c -> rng_ok c -> saturated c -> (1 <= B)%nat ->
  outputs (run_r (pc_step c) (pc_init c) (repeat (repeat (repeat 1 (pc_in c)) B) n)) =
  Some (repeat (repeat (repeat (flin_entry c) (pc_out c)) B) n).
Proof.
  intros Hs Hr [S1 S2] HB.
  assert (Hh : Forall (batch_ok B (pc_in c)) (repeat (repeat (repeat 1 (pc_in c)) B) n)).
  { apply Forall_forall. intros x Hx. apply repeat_spec in Hx. subst x. split; [apply repeat_length|].
    apply Forall_forall. intros r Hx. apply repeat_spec in Hx. subst r. split; [apply repeat_length|].
    apply Forall_forall. intros v Hv. apply repeat_spec in Hv. subst v. right. reflexivity. }
  rewrite (pc_run c B _ Hs HB Hh). cbn [outputs]. f_equal. rewrite repeat_length.
  assert (RT : forall {X} (v : X) k f, (forall i, (i < k)%nat -> f i = v) -> tab k f = repeat v k).
  { intros X v k f E. induction k as [|k IH]; [reflexivity|]. rewrite tab_S, IH by (intros; apply E; lia).
    rewrite E by lia. rewrite <- repeat_cons. reflexivity. }
  apply RT. intros t Ht. apply RT. intros b Hb. apply RT. intros o Ho. unfold pc_out_at.
  rewrite zsum_tab_ones.
  - unfold flin_entry, pc_bbit. destruct (pc_bias c) as [bs|]; [|lia].
    rewrite bsgen_above; [lia|exact Hr|]. intros v Hv. apply S2; assumption.
  - intros i Hi. unfold pc_prod.
    assert (E : entry2 (nth t (repeat (repeat (repeat 1 (pc_in c)) B) n) []) b i = 1).
    { unfold entry2. rewrite !(nth_repeat_lt _ _ _ _) by assumption. reflexivity. }
    rewrite E, bsgen_above; [destruct (pc_mode c); lia|exact Hr|]. intros v Hv. apply S1; assumption.
Qed.

Lemma pc_dt_full st c B n : pc_shape c -> rng_ok c -> saturated c -> (1 <= B)%nat ->
  outputs (run_r (pc_dt_step st c) (pc_init c) (repeat (repeat (repeat 1 (pc_in c)) B) n)) =
  Some (repeat (repeat (repeat (cast st (flin_entry c)) (pc_out c)) B) n).
Proof.
  intros Hs Hr S HB. rewrite pc_dt_run, (pc_full c B n Hs Hr S HB). cbn [option_map]. f_equal.
  assert (MR : forall {X Y} (f : X -> Y) v k, map f (repeat v k) = repeat (f v) k).
  { intros X Y f v k. induction k as [|k IH]; [reflexivity|]. cbn [repeat map]. rewrite IH. reflexivity. }
  rewrite !MR. reflexivity.
Qed.

(** ** FSUAdd *)
Lemma fsuadd_dt_sum bt c s col col' : zlen col = zlen col' -> sum_dt bt (map (cast bt) col) = zsum col' ->
  fsuadd_dt_step bt c s col = fsuadd_step c s col'.
Proof. intros L E. unfold fsuadd_dt_step, fsuadd_step, fsuadd_call. rewrite E, L. reflexivity. Qed.

Lemma map_cast_bits bt col : wf_dtype bt -> bits col -> map (cast bt) col = col.
Proof.
  intros W F. rewrite <- (map_id col) at 2. apply map_ext_in. intros v Hv. pose proof (proj1 (Forall_forall _ _) F v Hv) as [E|E]; rewrite E.
  - apply cast_0; assumption.
  - apply cast_1; assumption.
Qed.
Lemma outs_step_ext {S I O} (f g : S -> I -> S * O) (P : I -> Prop) : (forall s x, P x -> f s x = g s x) ->
  forall xs s, Forall P xs -> outs f s xs = outs g s xs.
Proof.
  intros E. induction xs as [|x xs IH]; intros s F; [reflexivity|]. inversion F as [|? ? Px Fx]; subst.
  rewrite !outs_cons, (E s x Px), IH by assumption. reflexivity.
Qed.

Lemma fsuadd_dt_exact bt c e : In bt torch_dtypes -> add_fits bt e ->
  forall cols s, Forall bits cols -> Forall (fun col => zlen col = e) cols ->
  outs (fsuadd_dt_step bt c) s cols = outs (fsuadd_step c) s cols.
Proof.
  intros T A cols s F L. pose proof (torch_wf _ T) as W.
  apply (outs_step_ext _ _ (fun col => bits col /\ zlen col = e)).
  - intros s0 col [Hb Hl]. apply fsuadd_dt_sum; [reflexivity|]. rewrite (map_cast_bits bt col W Hb).
    destruct bt as [b|b|p emax]; cbn [sum_dt add_fits wf_dtype] in *; try reflexivity.
    rewrite p2_pow in A. pose proof (zsum_ones col Hb) as R. pose proof (ones_zeros col Hb) as R2. pose proof (ones_nonneg col). assert (0 <= zeros col) by apply countb_nonneg. cbn [cast]. apply fl_small; lia.
  - apply Forall_forall. intros col Hc. split; [exact (proj1 (Forall_forall _ _) F col Hc)|exact (proj1 (Forall_forall _ _) L col Hc)].
Qed.

Definition tall (k e : Z) : list Z := repeat 1 (Z.to_nat k) ++ repeat 0 (Z.to_nat (e - k)).
Lemma tall_facts k e : 0 <= k <= e -> bits (tall k e) /\ zlen (tall k e) = e /\ ones (tall k e) = k /\ zsum (tall k e) = k.
Proof.
  intros H. assert (B : bits (tall k e)).
  { apply Forall_app. split; apply Forall_forall; intros v Hv; apply repeat_spec in Hv; subst v; [right|left]; reflexivity. }
  assert (O : ones (tall k e) = k).
  { unfold tall. rewrite ones_app.
    assert (O1 : forall n, ones (repeat 1 n) = Z.of_nat n) by (induction n as [|n IH]; [reflexivity|cbn [repeat]; rewrite ones_cons, IH; change (if 1 =? 1 then 1 else 0) with 1; lia]).
    assert (O0 : forall n, ones (repeat 0 n) = 0) by (induction n as [|n IH]; [reflexivity|cbn [repeat]; rewrite ones_cons, IH; reflexivity]).
    rewrite O1, O0. lia. }
  split; [exact B|]. split; [unfold zlen, tall; rewrite app_length, !repeat_length; lia|]. split; [exact O|]. rewrite zsum_ones; assumption.
Qed.
Lemma total_repeat col n : total_ones (repeat col n) = Z.of_nat n * ones col.
Proof. unfold total_ones. induction n as [|n IH]; [reflexivity|]. cbn [repeat map zsum]. rewrite IH. lia. Qed.

Lemma fsuadd_dt_iff bt c e : In bt torch_dtypes -> 0 < e ->
  resolved_entry None (fa_entry c) e = e -> (resolved_scale None (fa_scale c) e == inject_Z e)%Q ->
  (inject_Z (2 * e - 1) <= qpow2 (fa_depth c - 2))%Q ->
  ((forall cols, Forall bits cols -> Forall (fun col => zlen col = e) cols ->
     outs (fsuadd_dt_step bt c) (fsuadd_init c) cols = outs (fsuadd_step c) (fsuadd_init c) cols) <-> add_fits bt e).
Proof.
  intros T He E1 E2 E3. pose proof (torch_wf _ T) as W. split.
  - intros H. destruct bt as [b|b|p emax]; cbn [add_fits]; trivial. destruct (Z_le_gt_dec e (2 ^ Z.of_nat p)) as [L|G]; [assumption|exfalso].
    rewrite p2_pow in G. pose proof (p2_pos p) as P. cbn [wf_dtype] in W.
    destruct (tall_facts (p2 p + 1) e ltac:(lia)) as (B1 & L1 & O1 & S1). destruct (tall_facts (p2 p) e ltac:(lia)) as (B0 & L0 & O0 & S0).
    set (c1 := tall (p2 p + 1) e) in *. set (c0 := tall (p2 p) e) in *. clearbody c1 c0.
    assert (AR : forall {X} (Q : X -> Prop) v n, Q v -> Forall Q (repeat v n)).
    { intros X Q v n Hv. apply Forall_forall. intros u Hu. apply repeat_spec in Hu. subst u. exact Hv. }
    set (n := Z.to_nat e).
    assert (SAME : forall k s, outs (fsuadd_dt_step (Flt p emax) c) s (repeat c1 k) = outs (fsuadd_step c) s (repeat c0 k)).
    { induction k as [|k IH]; intros s; [reflexivity|]. cbn [repeat]. rewrite !outs_cons.
      rewrite (fsuadd_dt_sum (Flt p emax) c s c1 c0); [rewrite IH; reflexivity|lia|].
      rewrite (map_cast_bits (Flt p emax) c1 W B1). cbn [sum_dt cast]. rewrite S1, S0. apply fl_pow_succ; lia. }
    specialize (H (repeat c1 n) (AR _ _ _ _ B1) (AR _ _ _ _ L1)). rewrite SAME in H. apply (f_equal ones) in H.
    rewrite !(fsuadd_scaled_exact c e) in H by (try assumption; apply AR; assumption).
    rewrite !total_repeat, O1, O0 in H. unfold n in H. rewrite Z2Nat.id in H by lia.
    rewrite !(Z.mul_comm e), !Z.div_mul in H by lia. lia.
  - intros A cols F L. apply (fsuadd_dt_exact bt c e T A cols _ F L).
Qed.

Lemma gen_silent b w rng start n : In (SInt b) torch_dtypes -> w = (b - 1)%nat -> perm_seq w rng ->
  bsgen_stream (cast (SInt b) (p2 w)) (map (cast (SInt b)) rng) start n = repeat 0 n.
Proof. intros T. pose proof (torch_wf _ T) as W. apply gen_dt_silent. exact W. Qed.
Lemma gen_merges p emax w rng start n : In (Flt p emax) torch_dtypes -> (p < w)%nat ->
  bsgen_stream (cast (Flt p emax) (p2 p + 1)) (map (cast (Flt p emax)) rng) start n =
  bsgen_stream (cast (Flt p emax) (p2 p)) (map (cast (Flt p emax)) rng) start n.
Proof. intros T. pose proof (torch_wf _ T) as W. apply gen_dt_merge. exact W. Qed.
Lemma pc_full_both st c B n : pc_shape c -> rng_ok c -> saturated c -> (1 <= B)%nat ->
  let h := repeat (repeat (repeat 1 (pc_in c)) B) n in
  outputs (run_r (pc_step c) (pc_init c) h) = Some (repeat (repeat (repeat (flin_entry c) (pc_out c)) B) n) /\
  outputs (run_r (pc_dt_step st c) (pc_init c) h) = Some (repeat (repeat (repeat (cast st (flin_entry c)) (pc_out c)) B) n).
Proof. intros. split; [apply pc_full|apply pc_dt_full]; assumption. Qed.

(** The sequence of RNG itself. *)
Lemma map_eq_in {A} (f : A -> A) l : map f l = l <-> forall x, In x l -> f x = x.
Proof.
  induction l as [|x l IH]; [split; [intros _ y []|reflexivity]|]. split.
  - intros E y Hy. cbn [map] in E. injection E as E1 E2. destruct Hy as [<-|Hy]; [exact E1|]. exact (proj1 IH E2 y Hy).
  - intros H. cbn [map]. f_equal; [apply H; left; reflexivity|]. apply IH. intros y Hy. apply H. right. exact Hy.
Qed.
Lemma rng_dt_iff rt ext k w d : In rt torch_dtypes -> perm_seq w (rng_seq ext k w d) ->
  (rng_seq_dt rt ext k w d = rng_seq ext k w d <-> p2 w - 1 <= max_count rt).
Proof.
  intros Ht Hp. unfold rng_seq_dt. rewrite map_eq_in. pose proof (p2_pos w) as Pw. rewrite <- (counts_iff rt (p2 w - 1) Ht) by lia.
  split; intros H v Hv.
  - apply H. apply (Permutation_in _ (Permutation_sym Hp)). unfold zrange. apply in_map_iff. exists (Z.to_nat v). split; [lia|]. apply in_seq.
    pose proof (p2_nat w). lia.
  - apply H. apply (Permutation_in _ Hp) in Hv. unfold zrange in Hv. apply in_map_iff in Hv. destruct Hv as (i & <- & Hi). apply in_seq in Hi.
    pose proof (p2_nat w). lia.
Qed.
Lemma gen_rng_dt_iff rt ext k w d m : In rt torch_dtypes -> perm_seq w (rng_seq ext k w d) ->
  (forall s start n, src_ok m s ->
     bsgen_stream (bingen_dt rt m w s) (rng_seq_dt rt ext k w d) start n = bsgen_stream (bingen m w s) (rng_seq ext k w d) start n) <->
  (w <= room0 rt)%nat.
Proof. exact (gen_dt_iff rt w (rng_seq ext k w d) m). Qed.
