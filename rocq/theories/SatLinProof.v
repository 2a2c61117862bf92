(** Proofs for C82: layers. *)
From Coq Require Import String Lqa.
Require Import Verif.BaseLemmas Verif.AddProof Verif.SobolProof Verif.GenModel Verif.GenProof Verif.KernelModel Verif.KernelProof
  Verif.LinearModel Verif.LinearProof Verif.ChainSpec Verif.ChainProof Verif.NameSpec Verif.NameProof Verif.NewSpec Verif.ProgSpec Verif.ProgProof Verif.NetSpec Verif.NetProof
  Verif.SatSpec Verif.SatProof.
Open Scope Z_scope.

(** ** Products and biases *)
Lemma flow_K n u q K F : flow n u q K F -> (0 <= K)%Q.
Proof. intros H. specialize (H O O ltac:(lia)). apply qabs_le in H. lra. Qed.
Lemma mul_flow m ext w d B pre xs u q K : (w <= 30)%nat -> dirvec_ok 30 (ext_dirvec ext d) -> 0 <= B <= p2 w -> bits pre -> bits xs ->
  flow (length xs) u q K (counts xs) ->
  flow (length xs) (prod_prob m u (inject_Z B / inject_Z (p2 w))) q (K + layer_slack m w true)
    (fun t => inject_Z (ones (outs (fsumul_static_step m B (rng_seq ext KSobol w d)) fsumul_static_init (pre ++ firstn t xs)))).
Proof.
  intros Hw HV HB Hp Hx H a b Hab. specialize (H a b Hab).
  pose proof (mul_window m ext w d B (q * (Qn b - Qn a) + K) u (pre ++ firstn a xs) (stretch a b xs) true Hw HV HB) as G. cbv zeta in G.
  rewrite <- app_assoc, <- (stretch_app a b xs ltac:(lia)) in G.
  unfold Z.sub in G. rewrite inject_Z_plus, inject_Z_opp in G. unfold zlen in G. rewrite (stretch_length a b xs Hab), (Qn_sub a b ltac:(lia)) in G.
  assert (H1 : bits (pre ++ firstn a xs)) by (apply Forall_app; split; [exact Hp|apply forall_firstn; exact Hx]).
  assert (H2 : near (q * (Qn b - Qn a) + K) u (stretch a b xs)).
  { split; [exact (stretch_bits a b xs Hx)|]. rewrite (stretch_ones a b xs ltac:(lia)). unfold zlen. rewrite (stretch_length a b xs Hab), (Qn_sub a b ltac:(lia)).
    apply qabs_le in H. apply qabs_le. split; lra. }
  specialize (G H1 ltac:(discriminate) H2). apply qabs_le in G. apply qabs_le. split; lra.
Qed.
Lemma bias_flow m ext w d B n0 n : (w <= 30)%nat -> dirvec_ok 30 (ext_dirvec ext d) -> 0 <= B <= p2 w ->
  flow n (inject_Z B / inject_Z (p2 w)) 0 (layer_slack m w true) (fun t => inject_Z (ones (bsgen_stream B (rng_seq ext KSobol w d) 0 (n0 + t)))).
Proof.
  intros Hw HV HB a b Hab. rewrite !bsgen_ones by assumption.
  pose proof (below_window ext w d B (n0 + a) (b - a) true Hw HV HB ltac:(discriminate)) as D. apply in_grid in D.
  replace (n0 + a + (b - a))%nat with (n0 + b)%nat in D by lia. rewrite (Qn_sub a b ltac:(lia)) in D.
  unfold Z.sub in D. rewrite inject_Z_plus, inject_Z_opp in D.
  assert (S1 : (inject_Z (times true * Z.of_nat w) <= layer_slack m w true)%Q) by (unfold layer_slack, times; rewrite <- Zle_Qle; destruct m; lia).
  apply qabs_le in D. apply qabs_le. set (U := (inject_Z B / inject_Z (p2 w))%Q) in *. clearbody U. split; lra.
Qed.
Lemma to_of m u : (to_prob m (of_prob m u) == u)%Q.
Proof. destruct m; unfold of_prob, to_prob; [reflexivity|ring]. Qed.
Lemma to_prob_comp m x y : (x == y)%Q -> (to_prob m x == to_prob m y)%Q.
Proof. intros E. destruct m; unfold to_prob; rewrite E; reflexivity. Qed.
Lemma prod_to m w x B : (prod_prob m (to_prob m x) (inject_Z B / inject_Z (p2 w)) == to_prob m (x * grid_value m w B))%Q.
Proof.
  rewrite <- (to_of m (prod_prob m (to_prob m x) (inject_Z B / inject_Z (p2 w)))). apply to_prob_comp. rewrite prod_prob_value, of_to, of_prob_grid. reflexivity.
Qed.
Lemma grid_to m w B : (inject_Z B / inject_Z (p2 w) == to_prob m (grid_value m w B))%Q.
Proof. rewrite <- (to_of m (inject_Z B / inject_Z (p2 w))). rewrite of_prob_grid. reflexivity. Qed.

(** ** The counts behind one output lane *)
Definition weighted_ones (c : pc_cfg) (o : nat) (h : list (list (list Z))) (b : nat) : Z :=
  zsum (map (fun i => ones (outs (fsumul_static_step (pc_mode c) (entry2 (pc_weight c) o i) (pc_rng c)) fsumul_static_init (lane h b i))) (seq 0 (pc_in c)))
  + match pc_bias c with None => 0 | Some bs => ones (bsgen_stream (nth o bs 0) (pc_rng c) 0 (length h)) end.
Lemma pc_cols_total c B h b o p : pc_wtc c = false -> rng_ok c -> Forall (batch_ok B (pc_in c)) h -> (b < B)%nat -> (p <= length h)%nat ->
  zsum (map zsum (firstn p (tab (length h) (fun t => [pc_out_at c h t b o])))) = weighted_ones c o (firstn p h) b.
Proof.
  intros Hw Hr Hh Hb Hp. rewrite firstn_tab by exact Hp. rewrite map_tab. cbn [zsum].
  assert (Hh' : Forall (batch_ok B (pc_in c)) (firstn p h)) by (apply Forall_firstn, Hh).
  pose proof (pc_total_rate c B (firstn p h) b o Hw Hr Hh' Hb) as P. unfold bias_ones in P.
  unfold weighted_ones. rewrite firstn_length, Nat.min_l in * by exact Hp.
  rewrite <- P. f_equal. apply tab_ext. intros t Ht. rewrite (pc_out_at_firstn c h p t b o Ht Hp). lia.
Qed.

(** The entries of a layer: its inputs and then its bias. *)
Definition fam {A} (ni : nat) (f : nat -> A) (z : A) (i : nat) : A := if (i <? ni)%nat then f i else z.
Lemma qtotal_fam ni (bias : bool) f z : (qtotal (ni + if bias then 1 else 0) (fam ni f z) == qtotal ni f + if bias then z else 0)%Q.
Proof.
  assert (E : (qtotal ni (fam ni f z) == qtotal ni f)%Q).
  { apply qtotal_ext. intros i Hi. unfold fam. destruct (Nat.ltb_spec i ni); [reflexivity|lia]. }
  destruct bias; [|rewrite Nat.add_0_r, Qplus_0_r; exact E].
  rewrite Nat.add_1_r. unfold qtotal in *. rewrite seq_S, map_app, qsum_app. cbn [map qsum]. rewrite E. unfold fam at 1. rewrite Nat.add_0_l, Nat.ltb_irrefl. ring.
Qed.

Section Lane.
Variables (m : mode) (ext : rng_ext) (w d : nat) (c : pc_cfg) (B : nat).
Hypothesis Hw : (1 <= w <= 30)%nat.
Hypothesis HV : dirvec_ok 30 (ext_dirvec ext d).
Hypothesis Hs : pc_shape c.
Hypothesis Hm : pc_mode c = m.
Hypothesis Ht : pc_wtc c = false.
Hypothesis Hr : pc_rng c = rng_seq ext KSobol w d.
Hypothesis HW : forall o i, (o < pc_out c)%nat -> (i < pc_in c)%nat -> 0 <= entry2 (pc_weight c) o i <= p2 w.
Hypothesis HBi : forall bs o, pc_bias c = Some bs -> (o < pc_out c)%nat -> 0 <= nth o bs 0 <= p2 w.
Hypothesis HB : (1 <= B)%nat.

Definition hasb : bool := match pc_bias c with None => false | Some _ => true end.
Definition nent : nat := (pc_in c + if hasb then 1 else 0)%nat.
Definition bias_at (o : nat) : Z := match pc_bias c with None => 0 | Some bs => nth o bs 0 end.
Lemma nent_entry : flin_entry c = Z.of_nat nent.
Proof. unfold flin_entry, nent, hasb. destruct (pc_bias c); lia. Qed.

Lemma lane_inflow h1 h2 (x : nat -> Q) q K b o : Forall (batch_ok B (pc_in c)) h1 -> Forall (batch_ok B (pc_in c)) h2 -> (0 <= q)%Q -> (0 <= K)%Q ->
  (b < B)%nat -> (o < pc_out c)%nat ->
  (forall i, (i < pc_in c)%nat -> steady m q K (x i) (lane h2 b i)) ->
  flow (length h2) (qtotal nent (fun i => to_prob m (fam (pc_in c) (fun i => x i * grid_value m w (entry2 (pc_weight c) o i))%Q (grid_value m w (bias_at o)) i)))
    (inject_Z (Z.of_nat nent) * (q / span m)) (inject_Z (Z.of_nat nent) * (K + layer_slack m w true))
    (fun t => inject_Z (weighted_ones c o (h1 ++ firstn t h2) b)).
Proof.
  intros H1 H2 Hq HK Hb Ho Hx. pose proof (span_pos m) as SP. pose proof (slack_pos m w true) as SL.
  assert (Q0 : (0 <= q / span m)%Q) by (apply Qle_shift_div_l; lra).
  set (G := fam (pc_in c) (fun i t => inject_Z (ones (outs (fsumul_static_step m (entry2 (pc_weight c) o i) (pc_rng c)) fsumul_static_init (lane (h1 ++ firstn t h2) b i))))
              (fun t => inject_Z (ones (bsgen_stream (bias_at o) (pc_rng c) 0 (length h1 + t))))).
  set (U := fun i => to_prob m (fam (pc_in c) (fun i => x i * grid_value m w (entry2 (pc_weight c) o i)) (grid_value m w (bias_at o)) i)%Q).
  assert (FG : flow (length h2) (qtotal nent U) (qtotal nent (fun _ => q / span m)%Q) (qtotal nent (fun _ => K + layer_slack m w true)%Q) (fun t => qtotal nent (fun i => G i t))).
  { unfold qtotal. apply (flow_sum (length h2) (seq 0 nent) U (fun _ => q / span m)%Q (fun _ => K + layer_slack m w true)%Q G). intros i Hi. apply in_seq in Hi. unfold G, U, fam. destruct (Nat.ltb_spec i (pc_in c)) as [L|L].
    - pose proof (lane_bits B (pc_in c) h1 b i H1 Hb L) as B1. pose proof (lane_bits B (pc_in c) h2 b i H2 Hb L) as B2.
      pose proof (steady_flow m q K (x i) _ B2 HK (Hx i L)) as F.
      apply (mul_flow m ext w d (entry2 (pc_weight c) o i) (lane h1 b i)) in F; [|lia|exact HV|apply HW; assumption|exact B1|exact B2].
      rewrite NetProof.lane_length in F.
      eapply flow_ext; [apply prod_to|reflexivity|reflexivity| |exact F].
      intros t Htt. rewrite lane_app, ProgProof.lane_firstn, Hr. reflexivity.
    - assert (Eb : hasb = true) by (unfold nent in Hi; destruct hasb; [reflexivity|lia]).
      assert (Bo : 0 <= bias_at o <= p2 w).
      { unfold bias_at. unfold hasb in Eb. destruct (pc_bias c) as [bs|] eqn:E; [|discriminate]. apply (HBi bs o); [reflexivity|exact Ho]. }
      pose proof (bias_flow m ext w d (bias_at o) (length h1) (length h2) ltac:(lia) HV Bo) as F.
      apply (flow_le _ _ _ (q / span m) _ (K + layer_slack m w true)) in F; [|exact Q0|lra].
      eapply flow_ext; [apply grid_to|reflexivity|reflexivity| |exact F].
      intros t Htt. rewrite Hr. reflexivity. }
  assert (QC : forall n z, (qtotal n (fun _ => z) == inject_Z (Z.of_nat n) * z)%Q).
  { intros n z. pose proof (qtotal_lin n (fun _ => 0%Q) 0 z) as E. rewrite Qmult_0_l, Qplus_0_l in E. rewrite <- E. apply qtotal_ext. intros; ring. }
  eapply flow_ext; [reflexivity|apply QC|apply QC| |exact FG].
  intros t Htt. unfold G, nent. rewrite (qtotal_ext _ _ (fam (pc_in c) (fun i => inject_Z (ones (outs (fsumul_static_step m (entry2 (pc_weight c) o i) (pc_rng c)) fsumul_static_init (lane (h1 ++ firstn t h2) b i))))
       (inject_Z (ones (bsgen_stream (bias_at o) (pc_rng c) 0 (length h1 + t)))))) by (intros i Hi; unfold fam; destruct (i <? pc_in c)%nat; reflexivity).
  rewrite qtotal_fam. unfold weighted_ones, qtotal. rewrite inject_Z_plus, Hm.
  assert (QI : forall l f, (qsum (map (fun i : nat => inject_Z (f i)) l) == inject_Z (zsum (map f l)))%Q).
  { intros l f. induction l as [|i l IH]; [reflexivity|]. cbn [map qsum zsum]. rewrite IH, inject_Z_plus. reflexivity. }
  rewrite QI. apply Qplus_inj_l. unfold hasb, bias_at. rewrite app_length, firstn_length, Nat.min_l by exact Htt.
  destruct (pc_bias c); reflexivity.
Qed.

Theorem pc_steady : forall scale depth (used : bool) h1 h2 (x : nat -> nat -> Q) q K,
  Forall (batch_ok B (pc_in c)) h1 -> Forall (batch_ok B (pc_in c)) h2 -> (used = false -> h1 = []) -> (0 <= q)%Q -> (0 <= K)%Q ->
  (forall b i, (b < B)%nat -> (i < pc_in c)%nat -> steady m q K (x b i) (lane h2 b i)) ->
  let s := match scale with None => inject_Z (Z.of_nat nent) | Some q => q end in
  (0 < s)%Q ->
  (inject_Z (Z.of_nat nent) * (K + layer_slack m w true) + 2 * s <= qpow2 (depth - 2))%Q ->
  exists os1 os2, outputs (run_r (flin_step c (flin_acc_cfg c scale depth)) (flin_init c) (no_args (h1 ++ h2))) = Some (os1 ++ os2) /\
  length os1 = length h1 /\ length os2 = length h2 /\ Forall (batch_ok B (pc_out c)) os1 /\ Forall (batch_ok B (pc_out c)) os2 /\
  forall b o, (b < B)%nat -> (o < pc_out c)%nat ->
    steady m (inject_Z (Z.of_nat nent) * q / s)%Q (2 * (inject_Z (Z.of_nat nent) * (K + layer_slack m w true)) / s + 1 + held used (qpow2 (depth - 2)) s)%Q
      (clip m ((qtotal (pc_in c) (fun i => x b i * grid_value m w (entry2 (pc_weight c) o i))%Q + if hasb then grid_value m w (bias_at o) else 0) / s))%Q (lane os2 b o).
Proof.
  intros scale depth used h1 h2 x q K H1 H2 Hu Hq HK Hx s Hpos HL.
  assert (Hh : Forall (batch_ok B (pc_in c)) (h1 ++ h2)) by (apply Forall_app; split; assumption).
  destruct (flin_lane_any c scale depth B (h1 ++ h2) Hs HB Hh) as (os & R & Lo & Fo & H). rewrite app_length in Lo.
  rewrite nent_entry in H. fold s in H. set (lim := qpow2 (depth - 2)) in *. pose proof (qpow2_pos (depth - 2)) as LP. fold lim in LP.
  assert (RO : rng_ok c).
  { pose proof (rng_sobol_perm ext w d (proj2 Hw) HV) as HP. unfold rng_ok. rewrite Hr, (Permutation_length HP), len_zrange.
    assert (2 ^ w <> 0)%nat by (apply Nat.pow_nonzero; lia). lia. }
  exists (firstn (length h1) os), (skipn (length h1) os). rewrite firstn_skipn. split; [exact R|].
  assert (L1 : length (firstn (length h1) os) = length h1) by (rewrite firstn_length; lia). split; [exact L1|].
  assert (L2 : length (skipn (length h1) os) = length h2) by (rewrite skipn_length; lia). split; [exact L2|].
  split; [apply forall_firstn; exact Fo|].
  assert (Fo2 : Forall (batch_ok B (pc_out c)) (skipn (length h1) os)) by (rewrite <- (firstn_skipn (length h1) os) in Fo; apply Forall_app in Fo; exact (proj2 Fo)).
  split; [exact Fo2|]. intros b o Hb Ho. specialize (H b o Hb Ho).
  assert (El : lane (skipn (length h1) os) b o = skipn (length h1) (lane os b o)) by (unfold lane; symmetry; apply skipn_map). 
  set (off := layer_off c s) in *.
  set (cols := tab (length (h1 ++ h2)) (fun t => [pc_out_at c (h1 ++ h2) t b o])) in *.
  assert (Lc : length cols = (length h1 + length h2)%nat) by (unfold cols; rewrite tab_length, app_length; reflexivity).
  set (c1 := firstn (length h1) cols). set (c2 := skipn (length h1) cols).
  assert (Ec : cols = c1 ++ c2) by (symmetry; apply firstn_skipn).
  assert (Lc1 : length c1 = length h1) by (unfold c1; rewrite firstn_length; lia).
  assert (Lc2 : length c2 = length h2) by (unfold c2; rewrite skipn_length; lia).
  assert (E2 : lane (skipn (length h1) os) b o = outs (add_lane lim s off) (final (add_lane lim s off) 0%Q c1) c2).
  { rewrite El, H, Ec, outs_app. rewrite <- Lc1, <- (outs_length (add_lane lim s off) 0%Q c1) at 1. rewrite skipn_app, skipn_all, Nat.sub_diag. reflexivity. }
  set (V := fun i => fam (pc_in c) (fun i => x b i * grid_value m w (entry2 (pc_weight c) o i))%Q (grid_value m w (bias_at o)) i).
  pose proof (lane_inflow h1 h2 (x b) q K b o H1 H2 Hq HK Hb Ho (fun i Hi => Hx b i Hb Hi)) as F. fold V in F.
  set (n := inject_Z (Z.of_nat nent)) in *. pose proof (span_pos m) as SP. pose proof (slack_pos m w true) as SL.
  apply (flow_shift _ _ _ _ _ off) in F. apply (flow_div _ _ _ _ _ s Hpos) in F.
  assert (N0 : (0 <= n)%Q) by (unfold n; change 0%Q with (inject_Z 0); rewrite <- Zle_Qle; lia).
  assert (Inf : forall t, (t <= length h2)%nat -> (inflow off (firstn t c2) == inject_Z (weighted_ones c o (h1 ++ firstn t h2) b) - Qn t * off - inject_Z (weighted_ones c o h1 b))%Q).
  { intros t Htt. pose proof (pc_cols_total c B (h1 ++ h2) b o (length h1 + t) Ht RO Hh Hb ltac:(rewrite app_length; lia)) as T2.
    pose proof (pc_cols_total c B (h1 ++ h2) b o (length h1) Ht RO Hh Hb ltac:(rewrite app_length; lia)) as T1. fold cols in T1, T2. fold c1 in T1.
    rewrite firstn_app_2 in T2. rewrite firstn_app, Nat.sub_diag, firstn_O, app_nil_r, firstn_all in T1.
    assert (Ef : firstn (length h1 + t) cols = c1 ++ firstn t c2) by (rewrite Ec, <- Lc1 at 1; apply firstn_app_2).
    rewrite Ef, map_app, zsum_app, T1 in T2. unfold inflow.
    assert (Zt : zlen (firstn t c2) = Z.of_nat t) by (unfold zlen; rewrite firstn_length; lia). rewrite Zt. unfold Qn.
    replace (zsum (map zsum (firstn t c2))) with (weighted_ones c o (h1 ++ firstn t h2) b - weighted_ones c o h1 b) by lia.
    unfold Z.sub. rewrite inject_Z_plus, inject_Z_opp. ring. }
  assert (F2 : flow (length c2) (to_prob m (qtotal nent V / s)) (n * q / s / span m) (n * (K + layer_slack m w true) / s) (fun t => (inflow off (firstn t c2) / s)%Q)).
  { rewrite Lc2. pose proof (flow_plus _ _ _ _ _ _ _ _ _ F (flow_const (length h2) (- (inject_Z (weighted_ones c o h1 b) / s))%Q)) as F3.
    eapply flow_ext; [| | | |exact F3].
    - rewrite Qplus_0_r. unfold off, layer_off. rewrite Hm, nent_entry. apply offset_prob. exact Hpos.
    - field. split; lra.
    - ring.
    - intros t Htt. rewrite (Inf t Htt). field. lra. }
  apply (lane_flow lim s off (final (add_lane lim s off) 0%Q c1) c2 (held used lim s)) in F2.
  - rewrite E2. pose proof (outs_length (add_lane lim s off) (final (add_lane lim s off) 0%Q c1) c2) as Lx. rewrite <- Lx in F2.
    apply (flow_steady m _ _ (clip m (qtotal nent V / s))) in F2.
    + eapply steady_ext; [| | |exact F2]; [field; repeat split; lra|field; repeat split; lra|].
      apply clip_comp. unfold V, nent. apply Qmult_comp; [|reflexivity].
      exact (qtotal_fam (pc_in c) hasb (fun i => x b i * grid_value m w (entry2 (pc_weight c) o i))%Q (grid_value m w (bias_at o))).
    + rewrite <- E2. apply (lane_bits B (pc_out c)); assumption.
    + symmetry. apply clip_prob.
  - exact Hpos.
  - apply Qle_shift_div_l; [exact SP|]. rewrite Qmult_0_l. apply Qle_shift_div_l; [exact Hpos|]. nra.
  - apply Qle_shift_div_l; [exact Hpos|]. nra.
  - apply held_pos; lra.
  - assert (E : (s * (n * (K + layer_slack m w true) / s + 2) == n * (K + layer_slack m w true) + 2 * s)%Q) by (field; lra). rewrite E. exact HL.
  - apply held_range; [exact Hpos|lra|]. intros X. destruct c1; [reflexivity|]. rewrite (Hu X) in Lc1. discriminate Lc1.
Qed.
End Lane.

(** ** FSULinear *)
Lemma lin_parts_at ext ni no bias we be winit w m_name r_name dimr scale depth c a m :
  flin_new ext ni no bias (Some we) be winit w m_name r_name dimr scale depth = Ok (c, a) ->
  names_mode m_name m -> named r_name ["sobol"%string; "rc"%string] ->
  a = flin_acc_cfg c scale depth /\ flin_new ext ni no bias (Some we) be winit w m_name r_name dimr None depth = Ok (c, flin_acc_cfg c None depth).
Proof.
  intros E Hm Hr. pose proof (proj1 (rng_names r_name) Hr) as Hk.
  unfold flin_new in *. cbv zeta in *. rewrite Hk in *. cbn [is_tc] in *. rewrite !andb_false_r in *.
  destruct (pc_new ext ni no bias (Some we) be winit w m_name r_name dimr) as [c'|e]; [|discriminate]. cbn [bind] in *. injection E as <- <-. split; reflexivity.
Qed.

Theorem linear_steady : forall ext w m_name r_name m L scale c a, builds_at ext w m_name r_name L scale (c, a) ->
  names_mode m_name m -> named r_name ["sobol"%string; "rc"%string] -> (1 <= w <= 30)%nat -> dirvec_ok 30 (ext_dirvec ext (ly_dim L)) ->
  Forall (Forall (src_ok m)) (ly_w L) -> src_opt m (ly_b L) ->
  forall B (used : bool) h1 h2 x q K, (1 <= B)%nat -> Forall (batch_ok B (ly_in L)) h1 -> Forall (batch_ok B (ly_in L)) h2 ->
  (used = false -> h1 = []) -> (0 <= q)%Q -> (0 <= K)%Q ->
  (forall b i, (b < B)%nat -> (i < ly_in L)%nat -> (Qabs (x b i) <= 1)%Q /\ steady m q K (x b i) (lane h2 b i)) ->
  let n := inject_Z (ly_entries L) in let s := scale_of (ly_entries L) scale in
  (0 < s)%Q -> (n * (K + layer_slack m w true) + 2 * s <= Qpower 2 (ly_depth L - 2))%Q ->
  exists os1 os2, outputs (run_r (flin_step c a) (flin_init c) (no_args (h1 ++ h2))) = Some (os1 ++ os2) /\
  length os1 = length h1 /\ length os2 = length h2 /\ Forall (batch_ok B (ly_out L)) os1 /\ Forall (batch_ok B (ly_out L)) os2 /\
  forall b o, (b < B)%nat -> (o < ly_out L)%nat ->
    steady m (n * (q + grid_step m w / 2) / s) (2 * (n * (K + layer_slack m w true)) / s + 1 + left_over used (ly_depth L) s)
      (clip m (affine L (x b) o / s)) (lane os2 b o).
Proof.
  intros ext w mn rn m L scale c a E Hm Hr Hw HV Hwe Hbe B used h1 h2 x q K HB Hh1 Hh2 Hu Hq HK Hx n s Hs Hd.
  unfold builds_at in E. unfold affine. subst n s. unfold ly_entries in *.
  set (ni := ly_in L) in *. set (no := ly_out L) in *. set (bias := ly_bias L) in *. set (we := ly_w L) in *. set (be := ly_b L) in *.
  set (dimr := ly_dim L) in *. set (depth := ly_depth L) in *. clearbody ni no bias we be dimr depth.
  destruct (lin_parts_at _ _ _ _ _ _ _ _ _ _ _ _ _ _ _ _ E Hm Hr) as [-> E']. clear E.
  destruct (lin_parts _ _ _ _ _ _ _ _ _ _ _ _ _ _ _ E' Hm Hr) as (_ & Sh & Em & Et & Er & Ei & Eo & Ew & S2 & Hbl & Eb). clear E'.
  assert (Wy : forall o i, (o < no)%nat -> (i < ni)%nat -> src_ok m (nth i (nth o we []) 0%Q)) by (intros o i Ho Hi; exact (dir_lane_abs m we no ni o i S2 Hwe Ho Hi)).
  assert (We : forall o i, (o < no)%nat -> (i < ni)%nat -> entry2 (map (map (bingen m w)) we) o i = bingen m w (nth i (nth o we []) 0%Q)).
  { intros o i Ho Hi. pose proof (shape2_spec _ _ _ S2) as [W1 W2]. unfold entry2. rewrite Forall_forall in W2. specialize (W2 (nth o we []) ltac:(apply nth_In; lia)).
    rewrite nth_indep with (d' := map (bingen m w) []) by (rewrite map_length; lia). rewrite map_nth.
    rewrite nth_indep with (d' := bingen m w 0%Q) by (rewrite map_length; lia). rewrite map_nth. reflexivity. }
  assert (Bb : forall o, (o < no)%nat -> bias = true -> src_ok m (bias_entry be o)).
  { intros o Ho Ebias. destruct (Hbl Ebias) as (bl & -> & Lb). cbn [bias_entry src_opt] in *. rewrite Forall_forall in Hbe. apply Hbe. apply nth_In. lia. }
  assert (Be0 : forall o, match be with Some b0 => if bias then nth o b0 0 else 0 | None => 0 end%Q = if bias then bias_entry be o else 0%Q).
  { intros o. destruct bias; [destruct (Hbl eq_refl) as (bl & -> & _); reflexivity|]. destruct be; reflexivity. }
  assert (Hasb : hasb c = bias) by (unfold hasb; rewrite Eb; destruct bias; [destruct (Hbl eq_refl) as (bl & -> & _)|]; reflexivity).
  assert (Ent : Z.of_nat (nent c) = Z.of_nat ni + b2z bias) by (unfold nent; rewrite Hasb, Ei; destruct bias; cbn [b2z]; lia).
  assert (Bat : forall o, (o < no)%nat -> bias = true -> bias_at c o = bingen m w (bias_entry be o)).
  { intros o Ho ->. unfold bias_at. rewrite Eb. destruct (Hbl eq_refl) as (bl & -> & Lb). cbn [option_map bias_entry].
    rewrite nth_indep with (d' := bingen m w 0%Q) by (rewrite map_length; lia). apply map_nth. }
  assert (Hx' : forall b i, (b < B)%nat -> (i < pc_in c)%nat -> steady m q K (x b i) (lane h2 b i)) by (intros b i Hb Hi; rewrite Ei in Hi; exact (proj2 (Hx b i Hb Hi))).
  pose proof (pc_steady m ext w dimr c B Hw HV Sh Em Et Er) as P. rewrite Ei, Eo, Ew in P.
  specialize (P (fun o i Ho Hi => eq_ind_r (fun z => 0 <= z <= p2 w) (proj1 (bingen_all m w) _ (Wy o i Ho Hi)) (We o i Ho Hi))).
  assert (BI : forall bs o, pc_bias c = Some bs -> (o < no)%nat -> 0 <= nth o bs 0 <= p2 w).
  { intros bs o Hbs Ho. assert (X : bias = true) by (rewrite Eb in Hbs; destruct bias; [reflexivity|discriminate]).
    pose proof (Bat o Ho X) as Y. unfold bias_at in Y. rewrite Hbs in Y. rewrite Y. exact (proj1 (bingen_all m w) _ (Bb o Ho X)). }
  specialize (P BI HB scale depth used h1 h2 x q K Hh1 Hh2 Hu Hq HK). rewrite Ei in Hx'. specialize (P Hx').
  cbv zeta in P. rewrite Ent in P. fold (scale_of (Z.of_nat ni + b2z bias) scale) in P. specialize (P Hs Hd).
  destruct P as (os1 & os2 & R & L1 & L2 & F1 & F2 & P).
  exists os1, os2. split; [exact R|]. split; [exact L1|]. split; [exact L2|]. split; [exact F1|]. split; [exact F2|].
  intros b o Hb Ho. specialize (P b o Hb Ho). rewrite Hasb in P. rewrite Be0. unfold left_over. change (qpow2 (depth - 2)) with (Qpower 2 (depth - 2)) in P. unfold held in P.
  set (n := inject_Z (Z.of_nat ni + b2z bias)) in *. set (s := scale_of _ scale) in *.
  pose proof (grid_step_pos m w) as GP.
  apply (steady_move m _ _ _ (clip m ((qtotal ni (fun i => x b i * nth i (nth o we []) 0) + (if bias then bias_entry be o else 0)) / s))%Q (n * (grid_step m w / 2) / s)%Q) in P.
  - eapply steady_ext; [| | |exact P]; [field; lra|reflexivity|reflexivity].
  - apply clip_near.
    assert (D : (Qabs (qtotal ni (fun i => x b i * grid_value m w (entry2 (map (map (bingen m w)) we) o i)) - qtotal ni (fun i => x b i * nth i (nth o we []) 0)) <= inject_Z (Z.of_nat ni) * (grid_step m w / 2))%Q).
    { unfold qtotal. replace (Z.of_nat ni) with (zlen (seq 0 ni)) by (unfold zlen; rewrite seq_length; reflexivity). apply sum_err. intros i Hi. apply in_seq in Hi.
      rewrite We by lia. pose proof (grid_err m w (nth i (nth o we []) 0%Q)) as GE. destruct (Hx b i Hb ltac:(lia)) as [A _].
      assert (X : (x b i * grid_value m w (bingen m w (nth i (nth o we []) 0)) - x b i * nth i (nth o we []) 0 == x b i * (grid_value m w (bingen m w (nth i (nth o we []) 0)) - nth i (nth o we []) 0))%Q) by ring.
      rewrite X, Qabs_Qmult. pose proof (Qabs_nonneg (grid_value m w (bingen m w (nth i (nth o we []) 0%Q)) - nth i (nth o we []) 0%Q)). pose proof (Qabs_nonneg (x b i)). nra. }
    assert (D2 : (Qabs ((if bias then grid_value m w (bias_at c o) else 0) - (if bias then bias_entry be o else 0)) <= inject_Z (b2z bias) * (grid_step m w / 2))%Q).
    { destruct bias; cbn [b2z]; [rewrite (Bat o Ho eq_refl)|apply qabs_le; change (inject_Z 0) with 0%Q; lra].
      change (inject_Z 1) with 1%Q. pose proof (grid_err m w (bias_entry be o)). lra. }
    assert (En : (n == inject_Z (Z.of_nat ni) + inject_Z (b2z bias))%Q) by (unfold n; rewrite inject_Z_plus; reflexivity).
    set (A1 := qtotal ni (fun i => x b i * grid_value m w (entry2 (map (map (bingen m w)) we) o i))%Q) in *. set (A2 := qtotal ni (fun i => x b i * nth i (nth o we []) 0)%Q) in *.
    set (B1 := if bias then grid_value m w (bias_at c o) else 0%Q) in *. set (B2 := if bias then bias_entry be o else 0%Q) in *.
    clearbody A1 A2 B1 B2 s n.
    assert (X : ((A1 + B1) / s - (A2 + B2) / s == (A1 - A2 + (B1 - B2)) / s)%Q) by (field; lra).
    rewrite X. unfold Qdiv. rewrite Qabs_Qmult, (Qabs_pos (/ s)) by (apply Qlt_le_weak, Qinv_lt_0_compat, Hs).
    apply Qmult_le_compat_r; [|apply Qlt_le_weak, Qinv_lt_0_compat, Hs]. eapply Qle_trans; [apply Qabs_triangle|]. rewrite En. unfold Qdiv in D, D2. lra.
Qed.
