(** Proofs about rearranged and negated inputs. *)
Require Import Verif.BaseLemmas Verif.SymSpec Verif.AddModel Verif.AddProof Verif.GenModel Verif.GenProof Verif.KernelModel Verif.KernelProof Verif.LinearModel Verif.LinearProof Verif.ChainProof Verif.ProgProof Verif.HubProof Verif.NetSpec Verif.NetProof Verif.MonoProof Verif.MonoUnitsProof Verif.DivZeroProof Verif.FaultProof.
From Coq Require Import Lqa.
Open Scope Z_scope.

(** ** Addition *)
Lemma lane_sums lim s off : forall cols1 cols2, map zsum cols1 = map zsum cols2 -> forall a,
  outs (add_lane lim s off) a cols1 = outs (add_lane lim s off) a cols2.
Proof.
  induction cols1 as [|x l IH]; intros [|y m] H a; try discriminate; [reflexivity|]. cbn [map] in H. injection H as H1 H2.
  rewrite !outs_cons. unfold add_lane at 1 3 4 6. rewrite H1. f_equal. apply IH. exact H2.
Qed.
Theorem add_order : forall c cols1 cols2, Forall2 (@Permutation Z) cols1 cols2 ->
  outs (fsuadd_step c) (fsuadd_init c) cols1 = outs (fsuadd_step c) (fsuadd_init c) cols2.
Proof.
  intros c cols1 cols2 H. generalize (fsuadd_init c). induction H as [|x y l m P _ IH]; intros s; [reflexivity|].
  rewrite !outs_cons. assert (E : fsuadd_step c s x = fsuadd_step c s y).
  { unfold fsuadd_step, fsuadd_call. unfold zlen. rewrite (Permutation_length P), (zsum_perm _ _ P). reflexivity. }
  rewrite E. f_equal. apply IH.
Qed.

(** A pair of complementary streams adds nothing to a bipolar sum of fixed scale, a stream of zeros nothing to a unipolar one. *)
Lemma lane_deltas lim s : forall cols1 cols2 off1 off2, length cols1 = length cols2 ->
  (forall t, (t < length cols1)%nat -> inject_Z (zsum (nth t cols1 [])) - off1 == inject_Z (zsum (nth t cols2 [])) - off2)%Q ->
  forall a1 a2, (a1 == a2)%Q -> outs (add_lane lim s off1) a1 cols1 = outs (add_lane lim s off2) a2 cols2.
Proof.
  induction cols1 as [|x l IH]; intros [|y m] off1 off2 L H a1 a2 Ha; try discriminate; [reflexivity|].
  assert (H0 : (qclamp (- lim) lim (a1 + (inject_Z (zsum x) - off1)) == qclamp (- lim) lim (a2 + (inject_Z (zsum y) - off2)))%Q).
  { apply qclamp_compx. pose proof (H 0%nat ltac:(cbn; lia)) as H0. cbn [nth] in H0. rewrite Ha, H0. reflexivity. }
  rewrite !outs_cons. unfold add_lane at 1 3, acc_step. cbn [snd].
  rewrite (AddProof.qge_comp _ _ s s H0 (Qeq_refl s)). f_equal. apply IH; [cbn in L; lia|intros t Ht; apply (H (S t)); cbn; lia|].
  unfold add_lane, acc_step. cbn [fst]. apply qclamp_compx. apply Qplus_comp; [exact H0|reflexivity].
Qed.
Lemma map2_nth {A B C} (f : A -> B -> C) da db dc : forall xs ys t, (t < length xs)%nat -> length xs = length ys -> nth t (map2 f xs ys) dc = f (nth t xs da) (nth t ys db).
Proof. induction xs as [|x xs IH]; intros [|y ys] t Ht L; cbn [length] in *; try lia. destruct t; [reflexivity|]. cbn [map2 nth]. apply IH; lia. Qed.
Theorem add_pair : forall s d e cols ys, Forall (fun col => zlen col = e) cols -> length ys = length cols ->
  let c := {| fa_mode := Bipolar; fa_scale := Some s; fa_depth := d; fa_entry := None |} in
  outs (fsuadd_step c) (fsuadd_init c) (map2 (fun y col => y :: 1 - y :: col) ys cols) = outs (fsuadd_step c) (fsuadd_init c) cols.
Proof.
  intros s d e cols ys H L c.
  destruct (step_lane c e s cols eq_refl eq_refl H) as [E _].
  assert (H2 : Forall (fun col => zlen col = e + 2) (map2 (fun y col => y :: 1 - y :: col) ys cols)).
  { clear -H. revert ys. induction H as [|x l Hx _ IH]; intros [|y ys]; try constructor. - unfold zlen in *. cbn [length]. lia. - apply IH. }
  destruct (step_lane c (e + 2) s _ eq_refl eq_refl H2) as [E2 _]. rewrite E, E2. cbn [fa_mode c].
  assert (Lm : length (map2 (fun y col => y :: 1 - y :: col) ys cols) = length cols).
  { clear -L. revert ys L. induction cols; intros [|y ys] L; cbn in *; try lia. f_equal. apply IHcols. lia. }
  apply lane_deltas; [exact Lm| |reflexivity]. intros t Ht. rewrite Lm in Ht. unfold mode_offset.
  rewrite (map2_nth _ 0 []) by lia. cbn [zsum]. replace (nth t ys 0 + (1 - nth t ys 0 + zsum (nth t cols []))) with (zsum (nth t cols []) + 1) by lia.
  rewrite !inject_Z_plus. change (inject_Z 2) with 2%Q. change (inject_Z 1) with 1%Q. field.
Qed.
Theorem add_zero : forall s d cols,
  let c := {| fa_mode := Unipolar; fa_scale := Some s; fa_depth := d; fa_entry := None |} in
  outs (fsuadd_step c) (fsuadd_init c) (map (cons 0) cols) = outs (fsuadd_step c) (fsuadd_init c) cols.
Proof.
  intros s d cols c. destruct cols as [|x l]; [reflexivity|].
  pose proof (fsuadd_step_run c x l) as R1. pose proof (fsuadd_step_run c (0 :: x) (map (cons 0) l)) as R2. cbn zeta in R1, R2.
  cbn [map]. rewrite (proj1 R1), (proj1 R2). cbn [fa_mode c mode_offset fa_scale fa_entry resolved_scale].
  apply (lane_sums _ _ _ ((0 :: x) :: map (cons 0) l) (x :: l)). cbn [map zsum]. f_equal. rewrite map_map. reflexivity.
Qed.

(** ** Rearranging a layer *)
Lemma rearrange_entry rows cols x j k : (j < length rows)%nat -> (k < length cols)%nat ->
  entry2 (rearrange rows cols x) j k = entry2 x (nth j rows 0%nat) (nth k cols 0%nat).
Proof.
  intros Hj Hk. unfold entry2 at 1, rearrange.
  rewrite (nth_indep _ [] (map (entry2 x 0%nat) cols)) by (rewrite map_length; exact Hj). rewrite (map_nth (fun b => map (entry2 x b) cols) rows 0%nat).
  rewrite (nth_indep _ 0 (entry2 x (nth j rows 0%nat) 0%nat)) by (rewrite map_length; exact Hk). apply (map_nth (entry2 x (nth j rows 0%nat))).
Qed.
Lemma rearrange_shape rows cols x : length (rearrange rows cols x) = length rows /\ Forall (fun r => length r = length cols) (rearrange rows cols x).
Proof.
  unfold rearrange. rewrite map_length. split; [reflexivity|]. apply Forall_forall. intros r Hr. apply in_map_iff in Hr. destruct Hr as (b & <- & _). apply map_length.
Qed.
Lemma lane_rearrange rows cols h j k : (j < length rows)%nat -> (k < length cols)%nat ->
  lane (map (rearrange rows cols) h) j k = lane h (nth j rows 0%nat) (nth k cols 0%nat).
Proof. intros Hj Hk. unfold lane. rewrite map_map. apply map_ext. intros x. apply rearrange_entry; assumption. Qed.
Lemma entry_bit B n x b i : batch_ok B n x -> (b < B)%nat -> (i < n)%nat -> bit (entry2 x b i).
Proof. intros H. apply (batch_bit B n); assumption. Qed.
Lemma rearrange_ok B n rows cols x : batch_ok B n x -> Forall (fun b => (b < B)%nat) rows -> Forall (fun i => (i < n)%nat) cols ->
  batch_ok (length rows) (length cols) (rearrange rows cols x).
Proof.
  intros H Hr Hc. destruct (rearrange_shape rows cols x) as [L F]. split; [exact L|]. rewrite Forall_forall in Hr, Hc. apply Forall_forall. intros r Hi.
  rewrite Forall_forall in F. split; [apply F, Hi|]. unfold rearrange in Hi. apply in_map_iff in Hi. destruct Hi as (b & <- & Hb).
  apply Forall_forall. intros v Hv. apply in_map_iff in Hv. destruct Hv as (i & <- & Hi2). apply (entry_bit B n); auto.
Qed.
Lemma lanes_eq B n h1 h2 : Forall (batch_ok B n) h1 -> Forall (batch_ok B n) h2 -> length h1 = length h2 ->
  (forall b i, (b < B)%nat -> (i < n)%nat -> lane h1 b i = lane h2 b i) -> h1 = h2.
Proof.
  intros H1. revert h2. induction H1 as [|x l Hx _ IH]; intros [|y m] H2 L H; try discriminate; [reflexivity|].
  pose proof (Forall_inv H2) as Hy. apply Forall_inv_tail in H2. f_equal.
  - destruct Hx as [Lx Fx]. destruct Hy as [Ly Fy].
    rewrite (matrix_tab 0 B n x Lx), (matrix_tab 0 B n y Ly).
    + apply tab2_ext. intros b i Hb Hi. specialize (H b i Hb Hi). unfold lane in H. cbn [map] in H. injection H as H _. exact H.
    + eapply Forall_impl; [|exact Fy]. intros r Hr. apply Hr.
    + eapply Forall_impl; [|exact Fx]. intros r Hr. apply Hr.
  - apply IH; [exact H2|cbn in L; lia|]. intros b i Hb Hi. specialize (H b i Hb Hi). unfold lane in *. cbn [map] in H. injection H as _ H. exact H.
Qed.

Lemma arranged_shape outs ins c : pc_shape (arranged outs ins c).
Proof.
  unfold pc_shape, arranged. cbn. destruct (rearrange_shape outs ins (pc_weight c)) as [A B]. split; [exact A|]. split; [exact B|].
  destruct (pc_bias c); [apply map_length|exact I].
Qed.
Lemma arranged_entry outs ins c : Permutation ins (seq 0 (pc_in c)) -> flin_entry (arranged outs ins c) = flin_entry c.
Proof.
  intros P. unfold flin_entry, arranged. cbn. apply Permutation_length in P. rewrite seq_length in P. rewrite P. destruct (pc_bias c); reflexivity.
Qed.
Lemma zsum_pick ins n f : Permutation ins (seq 0 n) -> zsum (tab (length ins) (fun k => f (nth k ins 0%nat))) = zsum (tab n f).
Proof.
  intros P. unfold tab. assert (E : map (fun k => f (nth k ins 0%nat)) (seq 0 (length ins)) = map f ins).
  { rewrite <- (map_map (fun k => nth k ins 0%nat) f). f_equal. symmetry. apply (tab_of ins 0%nat). }
  rewrite E. apply zsum_perm, Permutation_map, P.
Qed.
Lemma arranged_at c outs ins rows h t j k : Permutation ins (seq 0 (pc_in c)) -> (j < length rows)%nat -> (k < length outs)%nat -> (t < length h)%nat ->
  pc_out_at (arranged outs ins c) (map (rearrange rows ins) h) t j k = pc_out_at c h t (nth j rows 0%nat) (nth k outs 0%nat).
Proof.
  intros P Hj Hk Ht. unfold pc_out_at. f_equal.
  - change (pc_in (arranged outs ins c)) with (length ins).
    rewrite <- (zsum_pick ins (pc_in c) _ P). f_equal. apply tab_ext. intros i Hi.
    assert (E1 : entry2 (nth t (map (rearrange rows ins) h) []) j i = entry2 (nth t h []) (nth j rows 0%nat) (nth i ins 0%nat)).
    { rewrite (nth_indep _ [] (rearrange rows ins [])) by (rewrite map_length; exact Ht). rewrite map_nth. apply rearrange_entry; assumption. }
    assert (E2 : lane (firstn t (map (rearrange rows ins) h)) j i = lane (firstn t h) (nth j rows 0%nat) (nth i ins 0%nat)).
    { rewrite firstn_map. apply lane_rearrange; assumption. }
    assert (E3 : zlen (firstn t (map (rearrange rows ins) h)) = zlen (firstn t h)) by (unfold zlen; rewrite firstn_map, map_length; reflexivity).
    unfold pc_prod, pc_idx1, pc_idx0, i0_used. cbn [pc_weight pc_rng pc_mode pc_wtc arranged]. rewrite rearrange_entry by assumption. rewrite E1, E2, E3. reflexivity.
  - unfold pc_bbit, arranged. cbn. destruct (pc_bias c) as [bs|]; [|reflexivity].
    rewrite (nth_indep _ 0 (nth 0%nat bs 0)) by (rewrite map_length; exact Hk). rewrite (map_nth (fun o => nth o bs 0)). reflexivity.
Qed.
Theorem layer_arranged : forall c scale depth B h rows ins outs, pc_shape c -> (1 <= B)%nat -> Forall (batch_ok B (pc_in c)) h ->
  Permutation ins (seq 0 (pc_in c)) -> Forall (fun o => (o < pc_out c)%nat) outs -> rows <> [] -> Forall (fun b => (b < B)%nat) rows ->
  exists os, outputs (run_r (flin_step c (flin_acc_cfg c scale depth)) (flin_init c) (no_args h)) = Some os /\
    length os = length h /\ Forall (batch_ok B (pc_out c)) os /\
    let c' := arranged outs ins c in
    outputs (run_r (flin_step c' (flin_acc_cfg c' scale depth)) (flin_init c') (no_args (map (rearrange rows ins) h))) =
      Some (map (rearrange rows outs) os).
Proof.
  intros c scale depth B h rows ins outs Sh HB Hh P Ho Hr Hrows.
  destruct (flin_lane_any c scale depth B h Sh HB Hh) as (os & E & L & Shos & H). exists os. split; [exact E|]. split; [exact L|]. split; [exact Shos|].
  intros c'. assert (Pi : Forall (fun i => (i < pc_in c)%nat) ins).
  { apply Forall_forall. intros i Hi. apply (Permutation_in _ P) in Hi. apply in_seq in Hi. lia. }
  assert (Hh' : Forall (batch_ok (length rows) (pc_in c')) (map (rearrange rows ins) h)).
  { apply Forall_forall. intros x Hx. apply in_map_iff in Hx. destruct Hx as (y & <- & Hy). rewrite Forall_forall in Hh. apply (rearrange_ok B (pc_in c)); auto. }
  assert (HR : (1 <= length rows)%nat) by (destruct rows; [contradiction|cbn; lia]).
  destruct (flin_lane_any c' scale depth (length rows) _ (arranged_shape outs ins c) HR Hh') as (os' & E' & L' & Shos' & H').
  rewrite E'. f_equal. rewrite map_length in L'.
  apply (lanes_eq (length rows) (length outs)); [exact Shos'| |rewrite map_length; congruence|].
  { apply Forall_forall. intros x Hx. apply in_map_iff in Hx. destruct Hx as (y & <- & Hy). rewrite Forall_forall in Shos. apply (rearrange_ok B (pc_out c)); auto. }
  intros j k Hj Hk. rewrite lane_rearrange by assumption. rewrite (H' j k Hj Hk).
  rewrite Forall_forall in Hrows, Ho. rewrite (H _ _ (Hrows _ (nth_In rows 0%nat Hj)) (Ho _ (nth_In outs 0%nat Hk))).
  assert (Ee : flin_entry c' = flin_entry c) by (apply arranged_entry, P). unfold layer_off. rewrite !Ee. change (pc_mode c') with (pc_mode c).
  rewrite map_length. f_equal. apply tab_ext. intros t Ht. f_equal. apply arranged_at; assumption.
Qed.
Theorem net_arranged : forall ls n orders B h rows ins, orders_ok n ls orders -> (1 <= B)%nat -> Forall (batch_ok B n) h ->
  Permutation ins (seq 0 n) -> rows <> [] -> Forall (fun b => (b < B)%nat) rows ->
  exists os, outputs (run_r (net_step (map scaled ls)) (net_init (map scaled ls)) h) = Some os /\
    let ls' := arranged_net ins ls orders in
    outputs (run_r (net_step (map scaled ls')) (net_init (map scaled ls')) (map (rearrange rows ins) h)) =
      Some (map (rearrange rows (last orders ins)) os).
Proof.
  induction ls as [|[[c scale] depth] ls IH]; intros n [|p ps] B h rows ins HO HB Hh P Hr Hrows; try contradiction.
  - exists h. split; [apply net_nil_run|]. cbn [arranged_net map last]. apply net_nil_run.
  - cbn [orders_ok] in HO. destruct HO as (Sh & <- & Pp & _ & HO).
    assert (Hp : Forall (fun o => (o < pc_out c)%nat) p).
    { apply Forall_forall. intros i Hi. apply (Permutation_in _ Pp) in Hi. apply in_seq in Hi. lia. }
    destruct (layer_arranged c scale depth B h rows ins p Sh HB Hh P Hp Hr Hrows) as (m & E1 & L1 & Sh1 & E2). cbv zeta in E2.
    destruct (IH (pc_out c) ps B m rows p HO HB Sh1 Pp Hr Hrows) as (os & R1 & R2). cbv zeta in R2.
    exists os. cbn [map]. unfold net_init. cbn [map]. split; [exact (net_run _ _ _ _ _ _ _ _ E1 R1)|].
    cbn [arranged_net map]. replace (last (p :: ps) ins) with (last ps p).
    + exact (net_run _ _ _ _ _ _ _ _ E2 R2).
    + clear. revert p ins. induction ps as [|q ps IHp]; intros p ins; [reflexivity|]. cbn [last] in *. destruct ps; [reflexivity|]. apply IHp.
Qed.

(** ** Negation *)
Theorem mul_negated : forall B rng xs, bits xs ->
  outs (fsumul_static_step Bipolar B rng) fsumul_static_init (negated xs) = negated (outs (fsumul_static_step Bipolar B rng) fsumul_static_init xs).
Proof.
  intros B rng xs Hx. assert (G : forall i j, outs (fsumul_static_step Bipolar B rng) (j, i) (negated xs) = negated (outs (fsumul_static_step Bipolar B rng) (i, j) xs)).
  { induction Hx as [|x xs Hb _ IH]; intros i j; [reflexivity|]. unfold negated in *. cbn [map]. rewrite !outs_cons. cbn [map].
    assert (Bb : forall k, bit (bsgen_bit B rng k)) by (intros k; unfold bsgen_bit, bit; destruct (_ : bool); cbn; lia).
    f_equal.
    - unfold fsumul_static_step. cbn [snd]. destruct (Bb i) as [-> | ->], (Bb j) as [-> | ->], Hb as [-> | ->]; reflexivity.
    - replace (fst (fsumul_static_step Bipolar B rng (j, i) (1 - x))) with (j + (1 - x), i + x) by (unfold fsumul_static_step; cbn [fst]; f_equal; lia).
      replace (fst (fsumul_static_step Bipolar B rng (i, j) x)) with (i + x, j + (1 - x)) by reflexivity. apply IH. }
  apply (G 0 0).
Qed.
Theorem mul_is_negated : forall w rng h, Forall (fun p : Z * Z => bit (fst p)) h ->
  outs (fsumul_is_step Bipolar w rng) (fsumul_is_init w) (map (fun p => (1 - fst p, snd p)) h) =
  negated (outs (fsumul_is_step Bipolar w rng) (fsumul_is_init w) h).
Proof.
  intros w rng h H. unfold fsumul_is_init.
  assert (G : forall r i j, outs (fsumul_is_step Bipolar w rng) {| mi_sr := r; mi_idx := j; mi_idx_inv := i |} (map (fun p => (1 - fst p, snd p)) h) =
    negated (outs (fsumul_is_step Bipolar w rng) {| mi_sr := r; mi_idx := i; mi_idx_inv := j |} h)).
  { induction H as [|[x y] h Hb _ IH]; intros r i j; [reflexivity|]. unfold negated in *. cbn [map]. rewrite !outs_cons. cbn [map fst snd].
    f_equal.
    - unfold fsumul_is_step. cbn [mi_sr mi_idx mi_idx_inv snd fst]. destruct (shiftreg_step r (y, None, 0)) as [r' [o cnt]]. cbn [snd].
      destruct (cnt >? nthZ rng i), (cnt >? nthZ rng j), Hb as [Hx|Hx]; cbn [fst] in Hx; rewrite Hx; reflexivity.
    - unfold fsumul_is_step at 2 4. cbn [mi_sr mi_idx mi_idx_inv snd fst]. destruct (shiftreg_step r (y, None, 0)) as [r' [o cnt]]. cbn [fst].
      replace (1 - (1 - x)) with x by lia. apply IH. }
  apply (G _ 0 0).
Qed.
Lemma negated_bits xs : bits xs -> bits (negated xs).
Proof. intros H. unfold bits, negated in *. rewrite Forall_forall in *. intros v Hv. apply in_map_iff in Hv. destruct Hv as (x & <- & Hx). destruct (H x Hx) as [->| ->]; cbv; auto. Qed.
Lemma negated_firstn t xs : firstn t (negated xs) = negated (firstn t xs).
Proof. unfold negated. apply firstn_map. Qed.
Lemma negated_length xs : length (negated xs) = length xs.
Proof. apply map_length. Qed.
Lemma ones_negated xs : bits xs -> ones (negated xs) = zlen xs - ones xs.
Proof.
  induction 1 as [|x xs Hb _ IH]; [reflexivity|]. unfold negated in *. cbn [map]. rewrite ones_bit, ones_bit, IH by (try exact Hb; destruct Hb as [->| ->]; cbv; auto).
  unfold zlen. cbn [length]. lia.
Qed.
Lemma negated_entry B n x b i : batch_ok B n x -> (b < B)%nat -> (i < n)%nat -> entry2 (map negated x) b i = 1 - entry2 x b i.
Proof.
  intros [L F] Hb Hi. unfold entry2. rewrite (nth_indep _ [] (negated [])) by (rewrite map_length, L; exact Hb). rewrite map_nth. unfold negated.
  assert (Lr : length (nth b x []) = n). { rewrite Forall_forall in F. apply F, nth_In. rewrite L. exact Hb. }
  rewrite (nth_indep _ 0 (1 - 0)) by (rewrite map_length, Lr; exact Hi). rewrite (map_nth (fun v => 1 - v)). reflexivity.
Qed.
Lemma negated_lane B n h b i : Forall (batch_ok B n) h -> (b < B)%nat -> (i < n)%nat -> lane (negated_batches h) b i = negated (lane h b i).
Proof.
  intros H Hb Hi. unfold lane, negated_batches, negated. rewrite !map_map. apply map_ext_in. intros x Hx. rewrite Forall_forall in H. apply (negated_entry B n); auto.
Qed.
Lemma negated_ok B n h : Forall (batch_ok B n) h -> Forall (batch_ok B n) (negated_batches h).
Proof.
  intros H. unfold negated_batches. apply Forall_forall. intros x Hx. apply in_map_iff in Hx. destruct Hx as (y & <- & Hy). rewrite Forall_forall in H. destruct (H y Hy) as [L F].
  split; [rewrite map_length; exact L|]. apply Forall_forall. intros r Hr. apply in_map_iff in Hr. destruct Hr as (q & <- & Hq). rewrite Forall_forall in F.
  destruct (F q Hq) as [A Bq]. split; [rewrite negated_length; exact A|apply negated_bits, Bq].
Qed.
Lemma negated_batches_firstn t h : firstn t (negated_batches h) = negated_batches (firstn t h).
Proof. unfold negated_batches. apply firstn_map. Qed.
Lemma negated_batches_length h : length (negated_batches h) = length h.
Proof. apply map_length. Qed.

Lemma neg_div e T x : 0 < e -> 0 <= T - x / e - (T * e - x) / e <= 1.
Proof.
  intros He. pose proof (Z.div_mod x e ltac:(lia)) as E. pose proof (Z.mod_pos_bound x e He) as M.
  replace (T * e - x) with (- (x mod e) + (T - x / e) * e) by nia. rewrite Z.div_add by lia.
  assert (-1 <= - (x mod e) / e <= 0); [|lia]. split; [apply Z.div_le_lower_bound; lia|]. apply Z.lt_succ_r. apply Z.div_lt_upper_bound; lia.
Qed.
(** A bipolar layer without bias on the negated inputs: at every moment the two outputs together have a one for every cycle but
    at most one. *)
Theorem layer_negated : forall l B h, sound l -> pc_mode (fst l) = Bipolar -> pc_bias (fst l) = None -> (1 <= B)%nat ->
  Forall (batch_ok B (pc_in (fst l))) h ->
  exists os1 os2,
    outputs (run_r (flin_step (fst l) (flin_acc_cfg (fst l) None (snd l))) (flin_init (fst l)) (no_args h)) = Some os1 /\
    outputs (run_r (flin_step (fst l) (flin_acc_cfg (fst l) None (snd l))) (flin_init (fst l)) (no_args (negated_batches h))) = Some os2 /\
    length os1 = length h /\ length os2 = length h /\
    Forall (batch_ok B (pc_out (fst l))) os1 /\ Forall (batch_ok B (pc_out (fst l))) os2 /\
    forall b o t, (b < B)%nat -> (o < pc_out (fst l))%nat -> (t <= length h)%nat ->
      0 <= Z.of_nat t - ones (firstn t (lane os1 b o)) - ones (firstn t (lane os2 b o)) <= 1.
Proof.
  intros [c d] B h (Sh & Hr & Hw & He & Hd) Hm Hbias HB H1. cbn [fst snd] in *. pose proof (negated_ok B (pc_in c) h H1) as H2.
  destruct (flin_rate c d B h Sh Hr Hw HB He Hd H1) as (os1 & E1 & L1 & Sh1 & _).
  destruct (flin_rate c d B _ Sh Hr Hw HB He Hd H2) as (os2 & E2 & L2 & Sh2 & _). rewrite negated_batches_length in L2.
  exists os1, os2. split; [exact E1|]. split; [exact E2|]. split; [exact L1|]. split; [exact L2|]. split; [exact Sh1|]. split; [exact Sh2|].
  intros b o t Hbb Ho Ht.
  destruct (flin_rate c d B (firstn t h) Sh Hr Hw HB He Hd (BaseLemmas.Forall_firstn _ _ _ H1)) as (p1 & F1 & _ & _ & G1).
  destruct (flin_rate c d B (firstn t (negated_batches h)) Sh Hr Hw HB He Hd (BaseLemmas.Forall_firstn _ _ _ H2)) as (p2 & F2 & _ & _ & G2).
  rewrite <- no_args_firstn in F1, F2. rewrite (run_r_firstn _ t _ _ _ E1) in F1. rewrite (run_r_firstn _ t _ _ _ E2) in F2.
  injection F1 as <-. injection F2 as <-. specialize (G1 b o Hbb Ho). specialize (G2 b o Hbb Ho).
  rewrite LinearProof.lane_firstn in G1, G2. rewrite G1, G2, Hbias, Hm, !Z.add_0_r. clear G1 G2.
  assert (Ent : Z.of_nat (pc_in c) = flin_entry c) by (unfold flin_entry; rewrite Hbias; lia). rewrite !Ent.
  set (P i := ones (outs (fsumul_static_step Bipolar (entry2 (pc_weight c) o i) (pc_rng c)) fsumul_static_init (lane (firstn t h) b i))).
  assert (S2 : map (fun i => ones (outs (fsumul_static_step Bipolar (entry2 (pc_weight c) o i) (pc_rng c)) fsumul_static_init (lane (firstn t (negated_batches h)) b i))) (seq 0 (pc_in c)) =
    map (fun i => Z.of_nat t - P i) (seq 0 (pc_in c))).
  { apply map_ext_in. intros i Hi. apply in_seq in Hi. rewrite negated_batches_firstn.
    assert (Hf : Forall (batch_ok B (pc_in c)) (firstn t h)) by (apply BaseLemmas.Forall_firstn, H1).
    rewrite (negated_lane B (pc_in c)) by (try exact Hf; try exact Hbb; lia).
    assert (Bl : bits (lane (firstn t h) b i)) by (apply (LinearProof.lane_bits B (pc_in c)); [exact Hf|exact Hbb|lia]).
    rewrite mul_negated by exact Bl. rewrite ones_negated by (apply (mul_static_count Bipolar); assumption).
    unfold P, zlen. rewrite outs_length, LinearProof.lane_length, firstn_length. do 2 f_equal. lia. }
  rewrite S2. assert (S3 : zsum (map (fun i => Z.of_nat t - P i) (seq 0 (pc_in c))) = Z.of_nat t * flin_entry c - zsum (map P (seq 0 (pc_in c)))).
  { rewrite <- Ent. clear. induction (pc_in c) as [|n IH]; [cbn; lia|]. rewrite seq_S, !map_app, !zsum_app, IH. cbn [map zsum]. lia. }
  rewrite S3. apply neg_div, He.
Qed.
Lemma within_trans j k xs ys zs : within j xs ys -> within k ys zs -> within (j + k) xs zs.
Proof. intros A B t. specialize (A t). specialize (B t). lia. Qed.
Lemma within_all k xs ys : length xs = length ys -> (forall t, (t <= length xs)%nat -> Z.abs (ones (firstn t xs) - ones (firstn t ys)) <= k) -> within k xs ys.
Proof.
  intros L H t. destruct (Nat.le_gt_cases t (length xs)) as [Ht|Ht]; [apply H, Ht|]. specialize (H (length xs) (Nat.le_refl _)).
  rewrite !firstn_all2 in H by lia. rewrite !firstn_all2 by lia. exact H.
Qed.
Theorem net_negated : forall ls, Forall odd_layer ls -> forall n B h1 h2 k, fitted n ls -> (1 <= B)%nat -> 0 <= k ->
  Forall (batch_ok B n) h1 -> Forall (batch_ok B n) h2 -> length h1 = length h2 -> lanes_within B n (fun _ _ => k) (negated_batches h1) h2 ->
  exists os1 os2,
    outputs (run_r (net_step (map plain ls)) (net_init (map plain ls)) h1) = Some os1 /\
    outputs (run_r (net_step (map plain ls)) (net_init (map plain ls)) h2) = Some os2 /\
    length os1 = length h1 /\ length os2 = length h2 /\
    lanes_within B (width_out n ls) (fun _ _ => k + zlen ls) (negated_batches os1) os2.
Proof.
  induction 1 as [|l ls (Hl & Hm & Hb) Hls IH]; intros n B h1 h2 k F HB Hk H1 H2 EL Hx.
  - exists h1, h2. cbn [map]. split; [apply net_nil_run|]. split; [apply net_nil_run|]. split; [reflexivity|]. split; [reflexivity|].
    intros b i Hbb Hi t. specialize (Hx b i Hbb Hi t). eapply Z.le_trans; [exact Hx|]. change (zlen (@nil (pc_cfg * Z))) with 0. lia.
  - cbn [fitted] in F. destruct F as (S1 & I1 & F). subst n.
    destruct (layer_negated l B h1 Hl Hm Hb HB H1) as (m1 & m1' & E1 & E1' & L1 & L1' & Sh1 & Sh1' & Hneg).
    destruct (linear_faults l B (negated_batches h1) h2 (fun _ _ => k) Hl HB (negated_ok _ _ _ H1) H2 ltac:(rewrite negated_batches_length; exact EL) Hx)
      as (m3 & m2 & E3 & E2 & L3 & L2 & Sh3 & Sh2 & Hm2). rewrite E1' in E3. injection E3 as <-.
    assert (Hm' : lanes_within B (pc_out (fst l)) (fun _ _ => k + 1) (negated_batches m1) m2).
    { intros b o Hbb Ho. rewrite Z.add_comm. apply (within_trans 1 k _ (lane m1' b o)).
      - rewrite (negated_lane B (pc_out (fst l))) by assumption. apply within_all; [rewrite negated_length, !LinearProof.lane_length; congruence|].
        intros t Ht. rewrite negated_length, LinearProof.lane_length in Ht. rewrite negated_firstn.
        rewrite ones_negated by (apply BaseLemmas.Forall_firstn, (LinearProof.lane_bits B (pc_out (fst l))); assumption).
        specialize (Hneg b o t Hbb Ho ltac:(lia)). unfold zlen. rewrite firstn_length, LinearProof.lane_length. lia.
      - intros t. eapply Z.le_trans; [apply (Hm2 b o Hbb Ho t)|]. rewrite zsum_const. destruct Hl as (_ & _ & _ & He & _).
        apply Z.lt_succ_r. apply Z.div_lt_upper_bound; [exact He|]. unfold flin_entry in *. destruct (pc_bias (fst l)); nia. }
    destruct (IH _ B m1 m2 (k + 1) F HB ltac:(lia) Sh1 Sh2 ltac:(congruence) Hm') as (os1 & os2 & R1 & R2 & K1 & K2 & Ho).
    exists os1, os2. cbn [map]. unfold net_init. cbn [map]. split; [exact (net_run _ _ _ _ _ _ _ _ E1 R1)|]. split; [exact (net_run _ _ _ _ _ _ _ _ E2 R2)|].
    split; [congruence|]. split; [congruence|]. intros b o Hbb Hoo t. specialize (Ho b o Hbb Hoo t). eapply Z.le_trans; [exact Ho|]. unfold zlen. cbn [length]. lia.
Qed.

(** ** Sign and magnitude *)
Lemma walk_negated xs : bits xs -> walk (negated xs) = - walk xs.
Proof.
  intros H. unfold walk. pose proof (ones_zeros xs H). pose proof (ones_zeros _ (negated_bits xs H)). rewrite (ones_negated xs H) in *.
  unfold zlen in *. rewrite negated_length in *. lia.
Qed.
Theorem signabs_negated : forall d xs k, bits xs -> in_signabs_range d xs -> in_signabs_range d (negated xs) -> (k < length xs)%nat ->
  let o := nth k (outs (fsusignabs_step d) (fsusignabs_init d) xs) (0, 0) in
  let o' := nth k (outs (fsusignabs_step d) (fsusignabs_init d) (negated xs)) (0, 0) in
  if walk (firstn (S k) xs) =? 0 then fst o = 0 /\ fst o' = 0 /\ snd o' = 1 - snd o else fst o' = 1 - fst o /\ snd o' = snd o.
Proof.
  intros d xs k Hb R1 R2 Hk o o'. assert (Hk' : (k < length (negated xs))%nat) by (rewrite negated_length; exact Hk).
  pose proof (signabs_out d xs k Hb Hk) as A. pose proof (signabs_out d _ k (negated_bits xs Hb) Hk') as A'. cbv zeta in A, A'. fold o in A. fold o' in A'.
  rewrite negated_firstn, walk_negated in A' by (apply BaseLemmas.Forall_firstn, Hb).
  assert (En : nth k (negated xs) 0 = 1 - nth k xs 0).
  { unfold negated. rewrite (nth_indep _ 0 (1 - 0)) by (rewrite map_length; exact Hk). apply (map_nth (fun v => 1 - v)). }
  assert (Bx : bit (nth k xs 0)) by (unfold bits in Hb; rewrite Forall_forall in Hb; apply Hb, nth_In, Hk).
  rewrite En in A'. destruct A as (F & _ & V & W). destruct A' as (F' & _ & V' & W'). specialize (W R1). specialize (W' R2). rewrite V, V'. clearbody o o'. clear V V'.
  generalize dependent (walk (firstn (S k) xs)). intros v W W'.
  destruct (Z.eqb_spec v 0) as [Ev|Ev].
  - assert (E1 : fst o = 0) by (destruct F; lia). assert (E2 : fst o' = 0) by (destruct F'; lia). rewrite E1, E2.
    destruct Bx as [->| ->]; repeat split; reflexivity.
  - assert (E2 : fst o' = 1 - fst o) by (destruct F, F'; lia). rewrite E2. split; [reflexivity|]. destruct F as [->| ->], Bx as [->| ->]; reflexivity.
Qed.
