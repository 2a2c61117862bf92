(** The output of FSUAdd, FSULinear without clamping: longest climbs. *)
Require Import Verif.BaseLemmas Verif.AddProof Verif.KernelModel Verif.LinearModel Verif.LinearProof Verif.ChainSpec.
Open Scope Z_scope.

(** ** Climbs *)
Lemma climbs_0 s level n : climbs s level n 0.
Proof. exists (fun _ => 0%nat). repeat split; intros; lia. Qed.

Lemma climbs_S s level n k : climbs s level (S n) (S k) <->
  climbs s level n (S k) \/ (climbs s level n k /\ (s * inject_Z (Z.of_nat k + 1) <= level (S n))%Q).
Proof.
  split.
  - intros (pos & P1 & P2 & P3). destruct (Nat.le_gt_cases (pos k) n) as [L|L].
    + left. exists pos. split; [|split; assumption]. intros i Hi.
      destruct (Nat.eq_dec i k) as [->|]; [specialize (P1 k Hi); lia|].
      specialize (P2 i k ltac:(lia) ltac:(lia)). specialize (P1 i Hi). lia.
    + right. assert (E : pos k = S n) by (specialize (P1 k ltac:(lia)); lia). split.
      * exists pos. split; [|split].
        -- intros i Hi. specialize (P2 i k Hi ltac:(lia)). specialize (P1 i ltac:(lia)). lia.
        -- intros i j Hij Hj. apply P2; lia.
        -- intros i Hi. apply P3. lia.
      * rewrite <- E. apply P3. lia.
  - intros [(pos & P1 & P2 & P3)|[(pos & P1 & P2 & P3) H]].
    + exists pos. split; [|split; assumption]. intros i Hi. specialize (P1 i Hi). lia.
    + exists (fun i => if (i =? k)%nat then S n else pos i). split; [|split].
      * intros i Hi. destruct (Nat.eqb_spec i k); [lia|]. specialize (P1 i ltac:(lia)). lia.
      * intros i j Hij Hj. destruct (Nat.eqb_spec i k); [lia|]. destruct (Nat.eqb_spec j k).
        -- specialize (P1 i ltac:(lia)). lia.
        -- apply P2; lia.
      * intros i Hi. destruct (Nat.eqb_spec i k) as [->|]; [exact H|]. apply P3. lia.
Qed.

Lemma climbs_ext s level level' n k : (forall p, (1 <= p <= n)%nat -> (level p == level' p)%Q) -> climbs s level n k -> climbs s level' n k.
Proof.
  intros E (pos & P1 & P2 & P3). exists pos. split; [exact P1|]. split; [exact P2|].
  intros i Hi. rewrite <- (E (pos i) (P1 i Hi)). apply P3, Hi.
Qed.

(** If the level never falls the latest times are as good as any. *)
Lemma climbs_monotone s level n k : (forall p, (p < n)%nat -> (level p <= level (S p))%Q) ->
  climbs s level n k <->
  (k <= n)%nat /\ forall i, (i < k)%nat -> (s * inject_Z (Z.of_nat i + 1) <= level (n - k + 1 + i)%nat)%Q.
Proof.
  intros Hm. assert (M : forall p q, (p <= q)%nat -> (q <= n)%nat -> (level p <= level q)%Q).
  { intros p q Hpq. induction Hpq as [|q Hpq IH]; intros Hq; [apply Qle_refl|].
    eapply Qle_trans; [apply IH; lia|apply Hm; lia]. }
  split.
  - intros (pos & P1 & P2 & P3).
    assert (Up : forall d i, (i + d = k - 1)%nat -> (i < k)%nat -> (pos i + d <= n)%nat).
    { induction d as [|d IH]; intros i Hd Hi; [specialize (P1 i Hi); lia|].
      specialize (IH (S i) ltac:(lia) ltac:(lia)). specialize (P2 i (S i) ltac:(lia) ltac:(lia)). lia. }
    assert (Lo : forall i, (i < k)%nat -> (i + 1 <= pos i)%nat).
    { induction i as [|i IH]; intros Hi; [specialize (P1 0%nat Hi); lia|].
      specialize (IH ltac:(lia)). specialize (P2 i (S i) ltac:(lia) Hi). lia. }
    assert (Hk : (k <= n)%nat).
    { destruct k as [|k]; [lia|]. specialize (Lo k ltac:(lia)). specialize (P1 k ltac:(lia)). lia. }
    split; [exact Hk|].
    + intros i Hi. eapply Qle_trans; [apply P3, Hi|]. specialize (Up (k - 1 - i)%nat i ltac:(lia) Hi). apply M; lia.
  - intros [Hk H]. exists (fun i => (n - k + 1 + i)%nat). split; [intros; lia|]. split; [intros; lia|exact H].
Qed.

(** ** The lane machine *)
Definition inflow (off : Q) (cols : list (list Z)) : Q := (inject_Z (zsum (map zsum cols)) - inject_Z (zlen cols) * off)%Q.

Lemma inflow_snoc off cols col : (inflow off (cols ++ [col]) == inflow off cols + (inject_Z (zsum col) - off))%Q.
Proof.
  unfold inflow. rewrite map_app, zsum_app, zlen_snoc. cbn [map zsum]. rewrite Z.add_0_r, !inject_Z_plus. change (inject_Z 1) with 1%Q. ring.
Qed.

Lemma lane_climbs lim s off cols : (0 < s)%Q ->
  unclamped lim s (fun p => inflow off (firstn p cols)) (fun t => ones (firstn t (outs (add_lane lim s off) 0%Q cols))) (length cols) ->
  (final (add_lane lim s off) 0 cols == inflow off cols - s * inject_Z (ones (outs (add_lane lim s off) 0%Q cols)))%Q /\
  forall k, Z.of_nat k <= ones (outs (add_lane lim s off) 0%Q cols) <-> climbs s (fun p => inflow off (firstn p cols)) (length cols) k.
Proof.
  intros Hs. induction cols as [|col cols IH] using rev_ind; intros Hu.
  - split.
    + cbn. unfold inflow, Qeq. cbn. lia.
    + intros [|k]; [split; [intros; apply climbs_0|cbn; lia]|]. split; [cbn; lia|].
      intros (pos & P1 & _). cbn [length] in P1. specialize (P1 0%nat ltac:(lia)). lia.
  - assert (Hf : forall p, (p <= length cols)%nat -> firstn p (cols ++ [col]) = firstn p cols).
    { intros p Hp. rewrite firstn_app. replace (p - length cols)%nat with 0%nat by lia. cbn [firstn]. apply app_nil_r. }
    assert (Hfo : forall p, (p <= length cols)%nat -> firstn p (outs (add_lane lim s off) 0%Q (cols ++ [col])) = firstn p (outs (add_lane lim s off) 0%Q cols)).
    { intros p Hp. rewrite outs_snoc, firstn_app, outs_length. replace (p - length cols)%nat with 0%nat by lia. cbn [firstn]. apply app_nil_r. }
    rewrite app_length in *. cbn [length] in *. rewrite Nat.add_1_r in *.
    destruct IH as [Ia Ik].
    { intros t Ht. specialize (Hu t ltac:(lia)). cbn beta in Hu. rewrite Hf, Hfo in Hu by lia. exact Hu. }
    specialize (Hu (length cols) ltac:(lia)). cbn beta in Hu. rewrite Hfo in Hu by lia.
    rewrite (firstn_all2 (outs (add_lane lim s off) 0%Q cols)) in Hu by (rewrite outs_length; lia).
    rewrite (firstn_all2 (cols ++ [col])) in Hu by (rewrite app_length; cbn [length]; lia).
    rewrite (final_snoc (add_lane lim s off)), (outs_snoc (add_lane lim s off)).
    set (acc := final (add_lane lim s off) 0%Q cols) in *.
    set (O := outs (add_lane lim s off) 0%Q cols) in *.
    rewrite (ones_app O), (ones_bit _ (add_lane_out_bit lim s off acc col)).
    assert (Ep : (acc + (inject_Z (zsum col) - off) == inflow off (cols ++ [col]) - s * inject_Z (ones O))%Q).
    { rewrite Ia, inflow_snoc. ring. }
    destruct (add_lane_free lim s off acc col Hs) as [F1 F2]; [rewrite Ep; apply Hu|rewrite Ep; apply Hu|].
    split.
    + rewrite F1, Ep, inject_Z_plus. ring.
    + assert (Ek : forall k, climbs s (fun p => inflow off (firstn p (cols ++ [col]))) (length cols) k <->
                             climbs s (fun p => inflow off (firstn p cols)) (length cols) k).
      { intros k. split; apply climbs_ext; intros p Hp; rewrite Hf by lia; apply Qeq_refl. }
      intros [|k]; [split; [intros; apply climbs_0|]|].
      { intros _. pose proof (ones_nonneg O). destruct (add_lane_out_bit lim s off acc col) as [-> | ->]; lia. }
      rewrite climbs_S, !Ek, <- !Ik.
      rewrite (firstn_all2 (n := S (length cols)) (cols ++ [col])) by (rewrite app_length; cbn [length]; lia).
      rewrite Ep in F2.
      set (L := inflow off (cols ++ [col])) in *.
      destruct F2 as [[-> F2]|[-> F2]].
      * assert (G : ones O = Z.of_nat k -> (s * inject_Z (Z.of_nat k + 1) <= L)%Q).
        { intros <-. rewrite inject_Z_plus. change (inject_Z 1) with 1%Q. lra. }
        split; [intros H; destruct (Z.eq_dec (ones O) (Z.of_nat k)) as [E|]; [right; split; [lia|apply G, E]|left; lia]|].
        intros [H|[H _]]; lia.
      * split; [intros H; left; lia|]. intros [H|[H G]]; [lia|].
        destruct (Z.eq_dec (ones O) (Z.of_nat k)) as [E|]; [exfalso|lia].
        rewrite <- E, inject_Z_plus in G. change (inject_Z 1) with 1%Q in G. lra.
Qed.

(** ** FSUAdd *)
Lemma zsum_total cols : Forall bits cols -> zsum (map zsum cols) = total_ones cols.
Proof.
  intros H. unfold total_ones. induction H as [|c cols Hc H IH]; [reflexivity|]. cbn [map zsum]. rewrite IH, (zsum_ones c Hc). reflexivity.
Qed.

Lemma Forall_firstn {A} (P : A -> Prop) l n : Forall P l -> Forall P (firstn n l).
Proof. intros H. rewrite <- (firstn_skipn n l) in H. apply Forall_app in H. apply H. Qed.

Lemma unclamped_ext lim s level level' paid paid' n :
  (forall p, (p <= n)%nat -> (level p == level' p)%Q) -> (forall t, (t <= n)%nat -> paid t = paid' t) ->
  unclamped lim s level paid n -> unclamped lim s level' paid' n.
Proof.
  intros E1 E2 H t Ht. specialize (H t Ht). rewrite (E1 (S t) ltac:(lia)), (E2 t ltac:(lia)) in H. exact H.
Qed.

Theorem fsuadd_climbs : forall c e s cols,
  resolved_entry None (fa_entry c) e = e ->
  resolved_scale None (fa_scale c) e = s ->
  (0 < s)%Q -> Forall bits cols -> Forall (fun col => zlen col = e) cols ->
  let level p := (inject_Z (total_ones (firstn p cols)) - inject_Z (Z.of_nat p) * mode_offset (fa_mode c) e s)%Q in
  let out := outs (fsuadd_step c) (fsuadd_init c) cols in
  unclamped (qpow2 (fa_depth c - 2)) s level (fun t => ones (firstn t out)) (length cols) ->
  forall k, Z.of_nat k <= ones out <-> climbs s level (length cols) k.
Proof.
  intros c e s cols Hen Hsc Hs Hb Hl level out Hu k.
  assert (E1 : out = outs (add_lane (qpow2 (fa_depth c - 2)) s (mode_offset (fa_mode c) e s)) 0%Q cols).
  { unfold out. destruct cols as [|col h]; [reflexivity|]. destruct (fsuadd_step_run c col h) as [R1 _].
    assert (Hcol : zlen col = e) by (inversion Hl; assumption). rewrite Hcol, Hen, Hsc in R1. exact R1. }
  assert (El : forall p, (p <= length cols)%nat -> (level p == inflow (mode_offset (fa_mode c) e s) (firstn p cols))%Q).
  { intros p Hp. unfold level, inflow. rewrite (zsum_total _ (Forall_firstn _ _ _ Hb)). unfold zlen.
    rewrite firstn_length, Nat.min_l by exact Hp. reflexivity. }
  rewrite E1 in *. destruct (lane_climbs _ s _ cols Hs (unclamped_ext _ _ _ _ _ _ _ El (fun _ _ => eq_refl) Hu)) as [_ H].
  rewrite H. split; apply climbs_ext; intros p Hp; [symmetry|]; apply El; lia.
Qed.

(** Unipolar mode: the level never falls. *)
Theorem fsuadd_unipolar_climbs : forall c e s cols,
  fa_mode c = Unipolar ->
  resolved_entry None (fa_entry c) e = e ->
  resolved_scale None (fa_scale c) e = s ->
  (0 < s)%Q -> Forall bits cols -> Forall (fun col => zlen col = e) cols ->
  let n := length cols in
  let out := outs (fsuadd_step c) (fsuadd_init c) cols in
  unclamped (qpow2 (fa_depth c - 2)) s (fun p => inject_Z (total_ones (firstn p cols))) (fun t => ones (firstn t out)) n ->
  forall k, Z.of_nat k <= ones out <->
    (k <= n)%nat /\ forall i, (i < k)%nat -> (s * inject_Z (Z.of_nat i + 1) <= inject_Z (total_ones (firstn (n - k + 1 + i) cols)))%Q.
Proof.
  intros c e s cols Hm Hen Hsc Hs Hb Hl n out Hu k.
  assert (El : forall p, (inject_Z (total_ones (firstn p cols)) == inject_Z (total_ones (firstn p cols)) - inject_Z (Z.of_nat p) * mode_offset (fa_mode c) e s)%Q).
  { intros p. rewrite Hm. unfold mode_offset. ring. }
  pose proof (fsuadd_climbs c e s cols Hen Hsc Hs Hb Hl) as H. cbn zeta in H. fold out in H. fold n in H.
  specialize (H (unclamped_ext _ _ _ _ _ _ _ (fun p _ => El p) (fun _ _ => eq_refl) Hu) k). rewrite H. clear H.
  assert (E : climbs s (fun p => inject_Z (total_ones (firstn p cols)) - inject_Z (Z.of_nat p) * mode_offset (fa_mode c) e s)%Q n k <->
              climbs s (fun p => inject_Z (total_ones (firstn p cols))) n k).
  { split; apply climbs_ext; intros p _; [symmetry|]; apply El. }
  rewrite E. apply climbs_monotone. intros p Hp. rewrite <- Zle_Qle.
  assert (Ef : firstn (S p) cols = firstn p cols ++ [nth p cols []]).
  { clear -Hp. unfold n in Hp. revert p Hp. induction cols as [|c cols IH]; intros p Hp; [cbn in Hp; lia|].
    destruct p as [|p]; [reflexivity|]. cbn [length] in Hp. cbn [firstn nth app]. rewrite <- IH by lia. reflexivity. }
  rewrite Ef, total_snoc. pose proof (ones_nonneg (nth p cols [])). lia.
Qed.

(** ** FSULinear with any scale *)
Lemma firstn_tab {A} n p (f : nat -> A) : (p <= n)%nat -> firstn p (tab n f) = tab p f.
Proof.
  intros H. unfold tab. rewrite firstn_map. f_equal. revert p H. generalize 0%nat.
  induction n as [|n IH]; intros a p H; [replace p with 0%nat by lia; reflexivity|].
  destruct p as [|p]; [reflexivity|]. cbn [seq firstn]. rewrite IH by lia. reflexivity.
Qed.

Lemma pc_out_at_firstn c h p t b o : (t < p)%nat -> (p <= length h)%nat -> pc_out_at c h t b o = pc_out_at c (firstn p h) t b o.
Proof.
  intros Ht Hp. rewrite <- (firstn_skipn p h) at 1. generalize (skipn p h). intros l.
  induction l as [|x l IH] using rev_ind; [rewrite app_nil_r; reflexivity|].
  rewrite app_assoc, pc_out_at_app; [exact IH|]. rewrite app_length, firstn_length, Nat.min_l by exact Hp. lia.
Qed.

Definition layer_off (c : pc_cfg) (s : Q) : Q := mode_offset (pc_mode c) (flin_entry c) s.

Lemma flin_lane_any c scale depth B h : pc_shape c -> (1 <= B)%nat -> Forall (batch_ok B (pc_in c)) h ->
  let a := flin_acc_cfg c scale depth in
  let s := match scale with None => inject_Z (flin_entry c) | Some q => q end in
  exists os, outputs (run_r (flin_step c a) (flin_init c) (no_args h)) = Some os /\
    length os = length h /\ Forall (batch_ok B (pc_out c)) os /\
    forall b o, (b < B)%nat -> (o < pc_out c)%nat ->
      lane os b o = outs (add_lane (qpow2 (depth - 2)) s (layer_off c s)) 0%Q (tab (length h) (fun t => [pc_out_at c h t b o])).
Proof.
  intros Hs HB Hh a s.
  destruct (flin_run c a B (no_args h) Hs HB) as (pc & _ & E); [rewrite fl_inputs_no_args; exact Hh|].
  rewrite E. clear E. eexists. split; [reflexivity|].
  assert (Lh : length (no_args h) = length h) by (unfold no_args; apply map_length). rewrite Lh.
  split; [apply tab_length|].
  assert (Lc : forall b o, length (fl_calls c (no_args h) b o) = length h).
  { intros. unfold fl_calls. rewrite tab_length. exact Lh. }
  assert (Hbits : forall b o, bits (outs (fsuadd_call a) (fsuadd_init a) (fl_calls c (no_args h) b o))).
  { intros b o. rewrite flin_lane_cols. unfold outs. rewrite <- fsuadd_step_call. apply fsuadd_bits. }
  split.
  - apply Forall_forall. intros x Hx. unfold tab in Hx. apply in_map_iff in Hx. destruct Hx as (t & <- & Ht). apply in_seq in Ht.
    split; [apply tab_length|]. apply Forall_forall. intros r Hr. unfold tab2, tab in Hr. apply in_map_iff in Hr.
    destruct Hr as (b & <- & _). split; [rewrite map_length, seq_length; reflexivity|].
    unfold bits. apply Forall_forall. intros z Hz. apply in_map_iff in Hz. destruct Hz as (o & <- & _).
    apply (Forall_nth_lt bit _ t 0 (Hbits b o)). rewrite outs_length, Lc. lia.
  - intros b o Hb Ho.
    assert (E : lane (tab (length h) (fun t => tab2 B (pc_out c) (fun b o => nth t (outs (fsuadd_call a) (fsuadd_init a) (fl_calls c (no_args h) b o)) 0))) b o
      = outs (fsuadd_call a) (fsuadd_init a) (fl_calls c (no_args h) b o)).
    { unfold lane. rewrite map_tab.
      rewrite <- (outs_tab_nth (fsuadd_call a) (fsuadd_init a) (fl_calls c (no_args h) b o) (length h) 0 (Lc b o)).
      apply tab_ext. intros t Ht. apply tab2_entry; assumption. }
    rewrite E, flin_lane_cols. unfold outs at 1. rewrite <- fsuadd_step_call. clear E.
    generalize (fun t => [pc_out_at c h t b o]). intros T. destruct h as [|x h]; [reflexivity|].
    change (tab (length (x :: h)) T) with (T 0%nat :: map T (seq 1 (length h))).
    destruct (fsuadd_step_run a (T 0%nat) (map T (seq 1 (length h)))) as [R _]. exact R.
Qed.

Theorem flin_climbs : forall c scale depth B h, pc_shape c -> rng_ok c -> pc_wtc c = false -> (1 <= B)%nat ->
  Forall (batch_ok B (pc_in c)) h ->
  let s := match scale with None => inject_Z (flin_entry c) | Some q => q end in
  let lim := qpow2 (depth - 2) in
  (0 < s)%Q ->
  exists os, outputs (run_r (flin_step c (flin_acc_cfg c scale depth)) (flin_init c) (no_args h)) = Some os /\
    length os = length h /\ Forall (batch_ok B (pc_out c)) os /\
    forall b o, (b < B)%nat -> (o < pc_out c)%nat ->
      let products p := zsum (map (fun i => ones (outs (fsumul_static_step (pc_mode c) (entry2 (pc_weight c) o i) (pc_rng c))
                                      fsumul_static_init (firstn p (lane h b i)))) (seq 0 (pc_in c)))
        + match pc_bias c with None => 0 | Some bs => ones (bsgen_stream (nth o bs 0) (pc_rng c) 0 p) end in
      let entries := Z.of_nat (pc_in c) + match pc_bias c with None => 0 | Some _ => 1 end in
      let level p := (inject_Z (products p) - inject_Z (Z.of_nat p) * mode_offset (pc_mode c) entries s)%Q in
      unclamped lim s level (fun t => ones (firstn t (lane os b o))) (length h) ->
      (Qabs (level (length h) - s * inject_Z (ones (lane os b o))) <= lim)%Q /\
      forall k, Z.of_nat k <= ones (lane os b o) <-> climbs s level (length h) k.
Proof.
  intros c scale depth B h Hs Hr Hw HB Hh s lim Hpos.
  destruct (flin_lane_any c scale depth B h Hs HB Hh) as (os & E & L & Sh & H). fold s in H. fold lim in H.
  exists os. split; [exact E|]. split; [exact L|]. split; [exact Sh|]. intros b o Hb Ho. specialize (H b o Hb Ho).
  intros products entries level Hu.
  set (cols := tab (length h) (fun t => [pc_out_at c h t b o])) in *.
  assert (Lc : length cols = length h) by apply tab_length.
  assert (El : forall p, (p <= length h)%nat -> (level p == inflow (layer_off c s) (firstn p cols))%Q).
  { intros p Hp. unfold level, inflow.
    assert (Ez : zlen (firstn p cols) = Z.of_nat p) by (unfold zlen; rewrite firstn_length, Nat.min_l by lia; reflexivity).
    rewrite Ez. assert (Et : zsum (map zsum (firstn p cols)) = products p).
    { unfold cols. rewrite firstn_tab by exact Hp. rewrite map_tab. cbn [zsum].
      assert (Hh' : Forall (batch_ok B (pc_in c)) (firstn p h)) by (apply Forall_firstn, Hh).
      pose proof (pc_total_rate c B (firstn p h) b o Hw Hr Hh' Hb) as P. unfold bias_ones in P.
      rewrite firstn_length, Nat.min_l in P by exact Hp.
      unfold products. transitivity (zsum (tab p (fun t => pc_out_at c (firstn p h) t b o))).
      - f_equal. apply tab_ext. intros t Ht. rewrite (pc_out_at_firstn c h p t b o Ht Hp). lia.
      - rewrite P. f_equal. f_equal. apply map_ext. intros i. rewrite lane_firstn. reflexivity. }
    rewrite Et. reflexivity. }
  rewrite H in *. rewrite <- Lc in Hu, El |- *.
  destruct (lane_climbs lim s (layer_off c s) cols Hpos (unclamped_ext _ _ _ _ _ _ _ El (fun _ _ => eq_refl) Hu)) as [Ha Hk].
  split.
  - rewrite (El (length cols)) by lia. rewrite firstn_all. rewrite <- Ha. apply Qabs_Qle_condition.
    apply add_final_range. unfold lim. apply Qlt_le_weak, qpow2_pos.
  - intros k. rewrite Hk. split; apply climbs_ext; intros p Hp; [symmetry|]; apply El; lia.
Qed.
