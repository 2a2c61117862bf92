(** Proofs for C83 and C84: sources and the gated unit. *)
From Coq Require Import String Lqa.
Require Import Verif.BaseLemmas Verif.AddProof Verif.SobolProof Verif.GenModel Verif.GenProof Verif.KernelModel Verif.KernelProof
  Verif.LinearModel Verif.LinearProof Verif.ChainSpec Verif.ChainProof Verif.NameSpec Verif.NameProof Verif.NewSpec Verif.ProgSpec Verif.ProgProof Verif.NetSpec Verif.NetProof
  Verif.SatSpec Verif.SatProof Verif.SatLinProof Verif.SatMulProof Verif.HubProof Verif.RnnModel Verif.RnnProof Verif.MguProof Verif.MguModel.
Open Scope Z_scope.

Lemma bsgen_from_ones B rng a n t : (t <= n)%nat ->
  ones (firstn t (bsgen_stream B rng (Z.of_nat a) n)) = ones (bsgen_stream B rng 0 (a + t)) - ones (bsgen_stream B rng 0 a).
Proof.
  intros Ht. rewrite (GenProof.bsgen_stream_app B rng 0 a t), ones_app. rewrite Z.add_0_l.
  assert (E : firstn t (bsgen_stream B rng (Z.of_nat a) n) = bsgen_stream B rng (Z.of_nat a) t).
  { unfold bsgen_stream. rewrite firstn_map, ProgProof.firstn_seq by lia. reflexivity. }
  rewrite E. lia.
Qed.
Theorem source_steady : forall m ext w d v a n, (w <= 30)%nat -> dirvec_ok 30 (ext_dirvec ext d) -> src_ok m v ->
  steady m (grid_step m w / 2) (2 * inject_Z (Z.of_nat w)) v (bsgen_stream (bingen m w v) (rng_seq ext KSobol w d) (Z.of_nat a) n).
Proof.
  intros m ext w d v a n Hw HV Hs. set (B := bingen m w v). set (rng := rng_seq ext KSobol w d).
  set (X0 := bsgen_stream B rng (Z.of_nat a) n). assert (L : length X0 = n) by (unfold X0, bsgen_stream; rewrite map_length, seq_length; reflexivity).
  assert (HB : 0 <= B <= p2 w) by exact (proj1 (bingen_all m w) v Hs).
  assert (F : flow n (to_prob m (grid_value m w B)) 0 (2 * inject_Z (Z.of_nat w)) (counts X0)).
  { intros x y Hxy. unfold counts, X0. rewrite !bsgen_from_ones by lia. unfold rng. rewrite !bsgen_ones by assumption.
    pose proof (below_window ext w d B (a + x) (y - x) true Hw HV HB ltac:(discriminate)) as D. apply in_grid in D.
    replace (a + x + (y - x))%nat with (a + y)%nat in D by lia. rewrite (Qn_sub x y ltac:(lia)) in D.
    assert (X : inject_Z (times true * Z.of_nat w) = (2 * inject_Z (Z.of_nat w))%Q) by (change 2%Q with (inject_Z 2); rewrite <- inject_Z_mult; reflexivity).
    rewrite X, (grid_to m w B) in D.
    unfold Z.sub in *. rewrite !inject_Z_plus, !inject_Z_opp in *. apply qabs_le in D. apply qabs_le.
    set (U := to_prob m (grid_value m w B)) in *. clearbody U. split; lra. }
  assert (BX : bits X0) by apply GenProof.bsgen_stream_bits. clearbody X0. rewrite <- L in F. apply (flow_steady m _ _ (grid_value m w B)) in F; [|exact BX|reflexivity].
  apply (steady_move m _ _ _ v (grid_step m w / 2)) in F; [|apply bingen_near].
  eapply steady_ext; [| | |exact F]; [ring|reflexivity|reflexivity].
Qed.

(** A stream inverted. *)
Lemma ones_inverted xs t : bits xs -> (t <= length xs)%nat -> ones (firstn t (map (fun x => 1 - x) xs)) = Z.of_nat t - ones (firstn t xs).
Proof.
  intros Hb Ht. rewrite firstn_map. assert (Hb' : bits (firstn t xs)) by (apply forall_firstn; exact Hb).
  assert (Lt : length (firstn t xs) = t) by (rewrite firstn_length; lia). rewrite <- Lt at 2. clear -Hb'. induction Hb' as [|x l Hx Hl IH]; [reflexivity|].
  cbn [map]. change (1 - x :: map (fun y => 1 - y) l) with ([1 - x] ++ map (fun y => 1 - y) l). change (x :: l) with ([x] ++ l).
  rewrite !ones_app, IH, app_length. destruct Hx as [->| ->]; change (ones [1 - 0]) with 1; change (ones [0]) with 0; change (ones [1 - 1]) with 0; change (ones [1]) with 1; cbn [length]; lia.
Qed.
Lemma inverted_bits xs : bits xs -> bits (map (fun x => 1 - x) xs).
Proof. intros H. apply Forall_map. eapply Forall_impl; [|exact H]. intros x [->| ->]; [right|left]; reflexivity. Qed.
Lemma inverted_steady q K v xs : bits xs -> (0 <= K)%Q -> steady Bipolar q K v xs -> steady Bipolar q K (- v) (map (fun x => 1 - x) xs).
Proof.
  intros Hb HK H. apply steady_flow in H; [|exact Hb|exact HK]. apply flow_neg in H.
  assert (F : flow (length (map (fun x => 1 - x) xs)) (1 - to_prob Bipolar v) (q / span Bipolar) K (counts (map (fun x => 1 - x) xs))).
  { rewrite map_length. eapply flow_ext; [reflexivity|reflexivity|reflexivity| |exact H]. intros t Ht. unfold counts. rewrite ones_inverted by assumption.
    unfold Z.sub. rewrite inject_Z_plus, inject_Z_opp. reflexivity. }
  apply (flow_steady Bipolar _ _ (- v)%Q) in F; [|apply inverted_bits; exact Hb|unfold to_prob; ring].
  eapply steady_ext; [| | |exact F]; [cbn [span]; field|reflexivity|reflexivity].
Qed.

(** The average with a constant 1. *)
Lemma avg_ones d xs : bits xs -> (3 <= Qpower 2 (d - 2))%Q ->
  let c := {| fa_mode := Bipolar; fa_scale := None; fa_depth := d; fa_entry := None |} in
  forall t, (t <= length xs)%nat -> ones (firstn t (outs (fsuadd_step c) (fsuadd_init c) (map (fun x => [x; 1]) xs))) = (ones (firstn t xs) + Z.of_nat t) / 2.
Proof.
  intros Hb Hd c t Ht. rewrite ProgProof.outs_firstn, firstn_map. assert (Hb' : bits (firstn t xs)) by (apply forall_firstn; exact Hb).
  assert (Lt : zlen (firstn t xs) = Z.of_nat t) by (unfold zlen; rewrite firstn_length; lia).
  rewrite (fsuadd_scaled_exact c 2).
  - f_equal. rewrite <- Lt. generalize dependent (firstn t xs). intros l Hl _. unfold total_ones. rewrite map_map.
    induction Hl as [|x l Hx Hl IH]; [reflexivity|]. cbn [map zsum]. rewrite IH.
    change (x :: l) with ([x] ++ l). rewrite zlen_app, (ones_app [x] l), (ones_bit x Hx).
    assert (E : ones [x; 1] = x + 1) by (destruct Hx as [->| ->]; reflexivity). rewrite E. change (zlen [x]) with 1. lia.
  - lia.
  - reflexivity.
  - reflexivity.
  - apply Forall_forall. intros col Hc. apply in_map_iff in Hc. destruct Hc as (x & <- & Hxx).
    unfold bits in Hb'. rewrite Forall_forall in Hb'. constructor; [apply Hb', Hxx|repeat constructor; right; reflexivity].
  - apply Forall_forall. intros col Hc. apply in_map_iff in Hc. destruct Hc as (x & <- & _). reflexivity.
  - exact Hd.
Qed.
Lemma half_flow n u q K (F : nat -> Z) : flow n u q K (fun t => inject_Z (F t)) ->
  flow n ((u + 1) / 2) (q / 2) (K / 2 + 1) (fun t => inject_Z ((F t + Z.of_nat t) / 2)).
Proof.
  intros H a b Hab. specialize (H a b Hab). cbv beta in H. apply qabs_le in H. apply qabs_le.
  assert (G : forall t, (inject_Z (F t) + Qn t - 1 <= 2 * inject_Z ((F t + Z.of_nat t) / 2) <= inject_Z (F t) + Qn t)%Q).
  { intros t. pose proof (Z.div_mod (F t + Z.of_nat t) 2 ltac:(lia)) as D. pose proof (Z.mod_pos_bound (F t + Z.of_nat t) 2 ltac:(lia)) as M.
    set (z := (F t + Z.of_nat t) / 2) in *. unfold Qn. change 2%Q with (inject_Z 2). change 1%Q with (inject_Z 1). unfold Qminus. rewrite <- inject_Z_opp, <- inject_Z_mult, <- !inject_Z_plus, <- !Zle_Qle. lia. }
  pose proof (G a) as Ga. pose proof (G b) as Gb. set (X := inject_Z ((F a + _) / 2)) in *. set (Y := inject_Z ((F b + _) / 2)) in *. clearbody X Y.
  set (A := inject_Z (F a)) in *. set (C := inject_Z (F b)) in *. clearbody A C. 
  assert (E1 : ((u + 1) / 2 == (u + 1) * (1#2))%Q) by field. assert (E2 : (q / 2 == q * (1#2))%Q) by field. assert (E3 : (K / 2 == K * (1#2))%Q) by field.
  rewrite E1, E2, E3. split; lra.
Qed.
Lemma avg_steady d xs q K v : bits xs -> (3 <= Qpower 2 (d - 2))%Q -> (0 <= K)%Q -> steady Bipolar q K v xs ->
  let c := {| fa_mode := Bipolar; fa_scale := None; fa_depth := d; fa_entry := None |} in
  steady Bipolar (q / 2) (K / 2 + 1) ((v + 1) / 2) (outs (fsuadd_step c) (fsuadd_init c) (map (fun x => [x; 1]) xs)).
Proof.
  intros Hb Hd HK H c. apply steady_flow in H; [|exact Hb|exact HK]. apply half_flow in H.
  set (O := outs _ _ _). assert (BO : bits O) by (apply fsuadd_call_bits || apply fsuadd_bits).
  assert (LO : length O = length xs) by (unfold O; rewrite outs_length, map_length; reflexivity).
  assert (F : flow (length O) ((to_prob Bipolar v + 1) / 2) (q / span Bipolar / 2) (K / 2 + 1) (counts O)).
  { rewrite LO. eapply flow_ext; [reflexivity|reflexivity|reflexivity| |exact H]. intros t Ht. unfold counts, O, c. rewrite avg_ones by assumption. reflexivity. }
  apply (flow_steady Bipolar _ _ ((v + 1) / 2)%Q) in F; [|exact BO|unfold to_prob; field].
  eapply steady_ext; [| | |exact F]; [cbn [span]; field|reflexivity|reflexivity].
Qed.

(** The static multiplier, from its first cycle. *)
Lemma static_bits m B rng : forall xs s, bits xs -> bits (outs (fsumul_static_step m B rng) s xs).
Proof.
  induction xs as [|x xs IH]; intros s Hb; [constructor|]. inversion Hb; subst. rewrite outs_cons. constructor; [apply static_bit; assumption|apply IH; assumption].
Qed.
Lemma static_steady m ext w d y xs q K v : (w <= 30)%nat -> dirvec_ok 30 (ext_dirvec ext d) -> src_ok m y -> bits xs -> (0 <= K)%Q -> (Qabs v <= 1)%Q ->
  steady m q K v xs ->
  steady m (q + grid_step m w / 2) (K + layer_slack m w true) (v * y) (outs (fsumul_static_step m (bingen m w y) (rng_seq ext KSobol w d)) fsumul_static_init xs).
Proof.
  intros Hw HV Hy Hb HK Hv H. apply steady_flow in H; [|exact Hb|exact HK].
  apply (mul_flow m ext w d (bingen m w y) [] xs _ _ _ Hw HV (proj1 (bingen_all m w) y Hy) ltac:(constructor) Hb) in H.
  set (O := outs _ _ _). assert (LO : length O = length xs) by (unfold O; rewrite outs_length; reflexivity).
  assert (BO : bits O) by (unfold O; apply static_bits; exact Hb).
  assert (F : flow (length O) (prod_prob m (to_prob m v) (inject_Z (bingen m w y) / inject_Z (p2 w))) (q / span m) (K + layer_slack m w true) (counts O)).
  { rewrite LO. eapply flow_ext; [reflexivity|reflexivity|reflexivity| |exact H]. intros t Ht. unfold counts, O. rewrite ProgProof.outs_firstn. reflexivity. }
  apply (flow_steady m _ _ (v * grid_value m w (bingen m w y))%Q) in F; [|exact BO|apply prod_to].
  pose proof (span_pos m) as SP. pose proof (bingen_near m w y) as N.
  apply (steady_move m _ _ _ (v * y)%Q (grid_step m w / 2)) in F.
  - eapply steady_ext; [| | |exact F]; [field; lra|reflexivity|reflexivity].
  - apply (qabs_le v 1) in Hv. apply qabs_le in N. apply qabs_le. set (g := grid_value m w _) in *. set (e := (grid_step m w / 2)%Q) in *. clearbody g e.
    pose proof (mul_within (g - y)%Q v e N Hv). split; lra.
Qed.

(** ** One call of the gated unit *)
Lemma lane_cat B n m (h1 h2 : list (list (list Z))) b i : Forall (batch_ok B n) h1 -> Forall (batch_ok B m) h2 -> length h1 = length h2 -> (b < B)%nat ->
  lane (map2 (map2 (@app Z)) h1 h2) b i = if (i <? n)%nat then lane h1 b i else lane h2 b (i - n).
Proof.
  intros H1. revert h2. induction H1 as [|x1 h1 [L1 X1] H1 IH]; intros h2 H2 L Hb; destruct h2 as [|x2 h2]; cbn [length] in L; try discriminate; [destruct (i <? n)%nat; reflexivity|].
  inversion H2 as [|? ? [L2 X2] H2']; subst. specialize (IH h2 H2' ltac:(lia) Hb). cbn [map2]. unfold lane in *. cbn [map]. rewrite IH.
  assert (E : entry2 (map2 (@app Z) x1 x2) b i = if (i <? n)%nat then entry2 x1 b i else entry2 x2 b (i - n)).
  { unfold entry2. rewrite (map2_nth_lt _ x1 x2 b [] [] []) by lia. pose proof (Forall_nth_lt _ x1 b [] X1 Hb) as [R _].
    destruct (Nat.ltb_spec i n); [rewrite app_nth1 by lia; reflexivity|]. rewrite app_nth2 by lia. rewrite R. reflexivity. }
  rewrite E. destruct (i <? n)%nat; reflexivity.
Qed.
Lemma cat_ok B n m (h1 h2 : list (list (list Z))) : Forall (batch_ok B n) h1 -> Forall (batch_ok B m) h2 -> Forall (batch_ok B (n + m)) (map2 (map2 (@app Z)) h1 h2).
Proof.
  intros H1. revert h2. induction H1 as [|x1 h1 X1 H1 IH]; intros h2 H2; [constructor|]. destruct h2 as [|x2 h2]; [constructor|]. inversion H2; subst. cbn [map2].
  constructor; [apply (cat1_ok B n m x1 x2); assumption|apply IH; assumption].
Qed.
Lemma clip_clamp x : (clip Bipolar x == qclamp (-1) 1 x)%Q.
Proof. unfold clip, qclamp, qmin, qmax. repeat match goal with |- context [Qle_bool ?a ?b] => destruct (Qle_bool_spec a b) end; lra. Qed.
Lemma slack_bi w : (layer_slack Bipolar w true == 4 * inject_Z (Z.of_nat w))%Q.
Proof. unfold layer_slack. change 4%Q with (inject_Z 4). rewrite <- inject_Z_mult. apply inject_Z_eq. lia. Qed.
Lemma p2_power w : (inject_Z (p2 w) == Qpower 2 (Z.of_nat w))%Q.
Proof. symmetry. apply (qpow2_p2 (Z.of_nat w)). lia. Qed.

(** The budgets of the two layers. *)
Lemma budget (n s K : Q) : (1 <= n)%Q -> (0 <= s)%Q -> (0 <= K)%Q ->
  let f := ((2 * (n * (K + s)) + 1) / 2 + 1)%Q in let h := (f + s)%Q in let g := (2 * (n * (h + s)) + 1)%Q in
  (K <= h /\ 0 <= f /\ 0 <= h /\ 0 <= g /\ n * (K + s) <= n * (h + s) /\ n * (h + s) <= g)%Q.
Proof.
  intros Hn Hs HK f h g. assert (P : (K + s <= n * (K + s))%Q) by (pose proof (Qmult_le_compat_r 1 n (K + s) Hn ltac:(lra)); lra).
  assert (F : (f == n * (K + s) + (3 # 2))%Q) by (unfold f; field).
  assert (P2 : (h + s <= n * (h + s))%Q) by (pose proof (Qmult_le_compat_r 1 n (h + s) Hn ltac:(unfold h; lra)); lra).
  assert (P3 : (n * (K + s) <= n * (h + s))%Q) by (apply mul_l; unfold h; lra).
  assert (Hh : (h == f + s)%Q) by reflexivity. assert (Hg : (g == 2 * (n * (h + s)) + 1)%Q) by reflexivity.
  set (A := (n * (K + s))%Q) in *. set (C := (n * (h + s))%Q) in *. clearbody A C f h g. repeat split; lra.
Qed.
Lemma rates (n e q : Q) : (2 <= n)%Q -> (0 <= e)%Q -> (0 <= q)%Q -> (q <= n * (q + e) / 2 + e)%Q.
Proof. intros Hn He Hq. assert (X : (n * (q + e) / 2 == n * (q + e) * (1 # 2))%Q) by field. rewrite X. pose proof (Qmult_le_compat_r 2 n (q + e) Hn ltac:(lra)). lra. Qed.

Theorem mgu_steady : forall ext I H bias wf bf wn bn hxb w mn depth wm rn dimr c,
  mgu_new ext I H bias (Some wf) bf (Some wn) bn (Some hxb) w mn depth wm rn dimr = Ok c ->
  named rn ["sobol"%string; "rc"%string] -> (1 <= w <= 30)%nat -> (wm <= 30)%nat -> (forall k, (k < 4)%nat -> dirvec_ok 30 (ext_dirvec (ext k) dimr)) ->
  Forall (Forall (src_ok Bipolar)) wf -> src_opt Bipolar bf -> Forall (Forall (src_ok Bipolar)) wn -> src_opt Bipolar bn ->
  forall B calls x q K, (1 <= B)%nat -> qshape B H hxb -> Forall (Forall (src_ok Bipolar)) hxb ->
  Forall (fun p => batch_ok B I (fst p) /\ batch_ok B H (snd p)) calls -> (0 <= q)%Q -> (0 <= K)%Q ->
  (forall b i, (b < B)%nat -> (i < I)%nat -> src_ok Bipolar (x b i) /\ steady Bipolar q K (x b i) (lane (map fst calls) b i)) ->
  (forall b j, (b < B)%nat -> (j < H)%nat -> steady Bipolar q K (qentry hxb b j) (lane (map snd calls) b j)) ->
  let n := inject_Z (Z.of_nat (H + I) + b2z bias) in
  (g_K n w K + p_K n w wm K + h_K n w K + 2 <= Qpower 2 (depth - 2))%Q ->
  exists os, outputs (run_r (mgu_step c) (mgu_init c) calls) = Some os /\ length os = length calls /\
  forall b j, (b < B)%nat -> (j < H)%nat ->
    let bf := bias_entry (if bias then bf else None) in let bn := bias_entry (if bias then bn else None) in
    let h := qentry hxb b in
    let f := mgu_forget (fun v => v) H I (qentry wf) bf h (x b) j in
    let g := Spec.mgu_new (fun v => v) H I (qentry wf) (qentry wn) bf bn h (x b) j in
    steady Bipolar (f_q n w q) (f_K n w K) f (lane (map mo_fg os) b j) /\
    steady Bipolar (h_q n w q) (h_K n w K) (f * h j) (lane (map mo_fg_hx os) b j) /\
    steady Bipolar (g_q n w q) (g_K n w K) g (lane (map mo_ng os) b j) /\
    steady Bipolar (p_q n w wm q K) (p_K n w wm K) (f * g) (lane (map mo_fg_ng os) b j) /\
    steady Bipolar (y_q n w wm q K) (y_K n w wm K) (Spec.mgu_next H I (qentry wf) (qentry wn) bf bn h (x b) j) (lane (map mo_hy os) b j).
Proof.
  intros ext I H bias wf bf wn bn hxb w mn depth wm rn dimr c Ec Hr Hw Hwm HV Wf Bf Wn Bn B calls x q K HB Sx Hxb Hc Hq HK Hin Hst n Hd.
  pose proof (proj1 (rng_names rn) Hr) as Hk.
  destruct (mgu_new_accepts _ _ _ _ _ _ _ _ _ _ _ _ _ _ _ _ Ec) as (Hm & (f0 & n0 & x0 & E1 & E2 & E3 & Ha) & _).
  injection E1 as <-. injection E2 as <-. injection E3 as <-.
  destruct (mgu_new_ok ext I H bias wf bf wn bn hxb w mn depth wm rn dimr KSobol Hm Hk eq_refl Ha) as (c' & Ec' & Sh & C1 & C2 & C3 & C4 & C5 & C6 & C7 & Bf0 & Bn0).
  rewrite Ec in Ec'. injection Ec' as <-.
  assert (Nm : names_mode mn Bipolar) by (right; split; [reflexivity|]; exists "bipolar"%string; split; [left; reflexivity|apply name_spec; [reflexivity|exact Hm]]).
  assert (Hbuf : hx_shape c B).
  { left. rewrite C2, C5. split; [rewrite map_length; apply Sx|]. apply Forall_map. eapply Forall_impl; [|apply Sx]. intros r Hr'. rewrite map_length. exact Hr'. }
  assert (Hcall : Forall (call_ok B c) calls) by (eapply Forall_impl; [|exact Hc]; unfold call_ok; rewrite C1, C2; tauto).
  destruct (mgu_cell c B calls Sh HB Hbuf Hcall) as (os & Eo & Lo & Bo & Rf & Rn & P). rewrite C2 in Bo, P.
  exists os. split; [exact Eo|]. split; [exact Lo|].
  assert (Fin : Forall (batch_ok B I) (map fst calls)) by (apply Forall_map; eapply Forall_impl; [|exact Hc]; cbv beta; tauto).
  assert (Fst : Forall (batch_ok B H) (map snd calls)) by (apply Forall_map; eapply Forall_impl; [|exact Hc]; cbv beta; tauto).
  assert (Ffh : Forall (batch_ok B H) (map mo_fg_hx os)) by (apply Forall_map; eapply Forall_impl; [|exact Bo]; cbv beta; tauto).
  assert (Hxe : forall b j, (b < B)%nat -> (j < H)%nat -> src_ok Bipolar (qentry hxb b j)).
  { intros b j Hb Hj. destruct Sx as [S1 S2]. unfold qentry. pose proof (Forall_nth_lt _ hxb b [] S2 ltac:(lia)) as R. pose proof (Forall_nth_lt _ hxb b [] Hxb ltac:(lia)) as R'. cbv beta in R, R'.
    apply (Forall_nth_lt _ _ j 0%Q R'). lia. }
  destruct (Nat.eq_dec H 0) as [H0|H0]; [intros b j Hb Hj; lia|].
  assert (N1 : (1 <= n)%Q) by (unfold n; change 1%Q with (inject_Z 1); rewrite <- Zle_Qle; unfold b2z; destruct bias; lia).
  set (s := (4 * inject_Z (Z.of_nat w))%Q).
  assert (S4 : (4 <= s)%Q) by (unfold s; change 4%Q with (inject_Z 4) at 1 2; rewrite <- inject_Z_mult, <- Zle_Qle; lia).
  pose proof (grid_step_pos Bipolar w) as GP. set (e := (grid_step Bipolar w / 2)%Q). assert (E0 : (0 < e)%Q) by (unfold e; apply Qlt_shift_div_l; lra).
  pose proof (budget n s K N1 ltac:(lra) HK) as BG. cbv zeta in BG.
  change ((2 * (n * (K + s)) + 1) / 2 + 1)%Q with (f_K n w K) in BG. change (f_K n w K + s)%Q with (h_K n w K) in BG. change (2 * (n * (h_K n w K + s)) + 1)%Q with (g_K n w K) in BG.
  destruct BG as (G1 & G2 & G3 & G4 & G5 & G6).
  assert (PK : (0 <= p_K n w wm K)%Q).
  { unfold p_K. assert (0 < Qpower 2 (Z.of_nat wm))%Q by (rewrite <- p2_power; apply inj_pos, p2_pos).
    assert (0 <= inject_Z (Z.of_nat wm))%Q by (change 0%Q with (inject_Z 0); rewrite <- Zle_Qle; lia). lra. }
  set (lim := Qpower 2 (depth - 2)) in *.
  assert (D1 : (n * (K + s) + 2 <= lim)%Q) by lra. assert (D2 : (n * (h_K n w K + s) + 2 <= lim)%Q) by lra.
  assert (D3 : (3 <= lim)%Q).
  { assert ((0 + s) <= n * (K + s))%Q by (pose proof (Qmult_le_compat_r 1 n (K + s) N1 ltac:(lra)); lra). lra. }
  set (hc := map (fun p => map2 (@app Z) (snd p) (fst p)) calls) in *.
  assert (Ehc : hc = map2 (map2 (@app Z)) (map snd calls) (map fst calls)) by (unfold hc; clear; induction calls as [|p l IH]; [reflexivity|]; cbn [map map2]; rewrite IH; reflexivity).
  set (Lf := {| ly_in := H + I; ly_out := H; ly_bias := bias; ly_w := wf; ly_b := bf; ly_dim := dimr; ly_depth := depth |}).
  set (Ln := {| ly_in := H + I; ly_out := H; ly_bias := bias; ly_w := wn; ly_b := bn; ly_dim := dimr; ly_depth := depth |}).
  assert (Af : forall o (X : nat -> Q), (clip Bipolar (affine Lf X o / 1) == qclamp (-1) 1 (dotq (H + I) X (qentry wf o) + bias_entry (if bias then bf else None) o))%Q).
  { intros o X. rewrite clip_clamp. apply qclamp_compx. unfold affine, Lf. cbn [ly_in ly_w ly_b ly_bias]. unfold dotq, qtotal, qentry.
    assert (Z : forall y, (y / 1 == y)%Q) by (intros; field). rewrite Z. apply Qplus_comp; [reflexivity|]. destruct bf, bias; reflexivity. }
  assert (An : forall o (X : nat -> Q), (clip Bipolar (affine Ln X o / 1) == qclamp (-1) 1 (dotq (H + I) X (qentry wn o) + bias_entry (if bias then bn else None) o))%Q).
  { intros o X. rewrite clip_clamp. apply qclamp_compx. unfold affine, Ln. cbn [ly_in ly_w ly_b ly_bias]. unfold dotq, qtotal, qentry.
    assert (Z : forall y, (y / 1 == y)%Q) by (intros; field). rewrite Z. apply Qplus_comp; [reflexivity|]. destruct bn, bias; reflexivity. }
  (* the forget gate *)
  destruct (mg_f c) as [cf af] eqn:Ef. destruct (mg_n c) as [cn an] eqn:En. cbn [fst snd] in Rf, Rn.
  set (xf := fun b i => joined H (qentry hxb b) (x b) i).
  assert (If : forall b i, (b < B)%nat -> (i < H + I)%nat -> (Qabs (xf b i) <= 1)%Q /\ steady Bipolar q K (xf b i) (lane hc b i)).
  { intros b i Hb Hi. rewrite Ehc, (lane_cat B H I) by (assumption || (rewrite !map_length; reflexivity)). unfold xf, joined. destruct (Nat.ltb_spec i H) as [X|X].
    - pose proof (Hxe b i Hb X) as [R1 R2]. split; [apply qabs_le; split; lra|apply Hst; assumption].
    - destruct (Hin b (i - H)%nat Hb ltac:(lia)) as [[R1 R2] R3]. split; [apply qabs_le; split; lra|exact R3]. }
  pose proof (cat_ok B H I _ _ Fst Fin) as Ohc. rewrite <- Ehc in Ohc.
  pose proof (linear_steady (ext 0%nat) w mn rn Bipolar Lf (Some 1%Q) cf af Bf0 Nm Hr Hw (HV 0%nat ltac:(lia)) Wf Bf B false [] hc xf q K HB ltac:(constructor) Ohc (fun _ => eq_refl) Hq HK If) as TF.
  cbv zeta in TF. cbn [scale_of left_over app] in TF. change (ly_entries Lf) with (Z.of_nat (H + I) + b2z bias) in TF. fold n in TF. change (ly_depth Lf) with depth in TF. fold lim in TF.
  specialize (TF ltac:(lra)). rewrite slack_bi in TF. fold s in TF. specialize (TF ltac:(lra)).
  destruct TF as (os1 & of & RF & L1 & _ & _ & _ & TF). destruct os1; [|discriminate L1]. cbn [app] in RF. rewrite Rf in RF. injection RF as <-.
  assert (SF : forall b j, (b < B)%nat -> (j < H)%nat -> steady Bipolar (gate_q n w q) (gate_K n w K)
    (qclamp (-1) 1 (dotq (H + I) (xf b) (qentry wf j) + bias_entry (if bias then bf else None) j)) (lane (map mo_fg_in os) b j)).
  { intros b j Hb Hj. specialize (TF b j Hb Hj). eapply steady_ext; [| | |exact TF]; [unfold gate_q; fold e; field|unfold gate_K; rewrite slack_bi; fold s; field|apply Af]. }
  clear TF Bf0.
  assert (GK : (0 <= gate_K n w K)%Q) by (unfold gate_K; fold s; pose proof (Qmult_le_compat_r 1 n (K + s) N1 ltac:(lra)); lra).
  set (F := fun b j => mgu_forget (fun v => v) H I (qentry wf) (bias_entry (if bias then bf else None)) (qentry hxb b) (x b) j).
  assert (F01 : forall b j, (0 <= F b j <= 1)%Q) by (intros b j; apply clamp_01).
  assert (Bits : forall (p : mgu_obs -> list (list Z)) b j, Forall (fun o => batch_ok B H (p o)) os -> (b < B)%nat -> (j < H)%nat -> bits (lane (map p os) b j)).
  { intros p b j Hp Hb Hj. apply (lane_bits B H); [apply Forall_map; exact Hp|exact Hb|exact Hj]. }
  assert (B1 : Forall (fun o => batch_ok B H (mo_fg_in o)) os) by (eapply Forall_impl; [|exact Bo]; cbv beta; tauto).
  assert (B2 : Forall (fun o => batch_ok B H (mo_fg o)) os) by (eapply Forall_impl; [|exact Bo]; cbv beta; tauto).
  assert (B3 : Forall (fun o => batch_ok B H (mo_fg_hx o)) os) by (eapply Forall_impl; [|exact Bo]; cbv beta; tauto).
  assert (B4 : Forall (fun o => batch_ok B H (mo_ng o)) os) by (eapply Forall_impl; [|exact Bo]; cbv beta; tauto).
  assert (B5 : Forall (fun o => batch_ok B H (mo_fg_ng o)) os) by (eapply Forall_impl; [|exact Bo]; cbv beta; tauto).
  assert (S2 : forall b j, (b < B)%nat -> (j < H)%nat -> steady Bipolar (f_q n w q) (f_K n w K) (F b j) (lane (map mo_fg os) b j)).
  { intros b j Hb Hj. destruct (P b j Hb Hj) as (P1 & _). rewrite P1, C3.
    eapply steady_ext; [| | |apply avg_steady; [apply Bits; assumption|exact D3|exact GK|apply SF; assumption]]; [reflexivity|reflexivity|].
    unfold F, mgu_forget. fold (xf b). symmetry. change (fun i => joined H (qentry hxb b) (x b) i) with (xf b). change (fun i => qentry wf j i) with (qentry wf j).
    pose proof (clamp_unit (dotq (H + I) (xf b) (qentry wf j) + bias_entry (if bias then bf else None) j)) as CU. set (z := qclamp (-1) 1 _) in *. clearbody z.
    assert (Z2 : ((z + 1) / 2 == (z + 1) * (1 # 2))%Q) by field. apply qclamp_id; rewrite Z2; lra. }
  assert (S3 : forall b j, (b < B)%nat -> (j < H)%nat -> steady Bipolar (h_q n w q) (h_K n w K) (F b j * qentry hxb b j) (lane (map mo_fg_hx os) b j)).
  { intros b j Hb Hj. destruct (P b j Hb Hj) as (_ & P2 & _). rewrite P2, C6.
    assert (EH : hx_at c b j = bingen Bipolar w (qentry hxb b j)).
    { unfold hx_at. rewrite C5, map_length. destruct Sx as [S1 S2']. assert (EB : (if (length hxb =? 1)%nat then 0%nat else b) = b) by (destruct (Nat.eqb_spec (length hxb) 1); lia).
      rewrite EB. unfold entry2, qentry. rewrite nth_indep with (d' := map (bingen Bipolar w) []) by (rewrite map_length; lia). rewrite map_nth.
      pose proof (Forall_nth_lt _ hxb b [] S2' ltac:(lia)) as R. cbv beta in R. rewrite nth_indep with (d' := bingen Bipolar w 0%Q) by (rewrite map_length; lia). apply map_nth. }
    rewrite EH. eapply steady_ext; [| | |apply static_steady; [lia|apply HV; lia|apply Hxe; assumption|apply Bits; assumption|exact G2| |apply S2; assumption]];
      [reflexivity|rewrite slack_bi; reflexivity|reflexivity|]. pose proof (F01 b j). apply qabs_le. split; lra. }
  (* the new gate *)
  set (xn := fun b i => joined H (fun j => F b j * qentry hxb b j)%Q (x b) i).
  set (hn := map2 (map2 (@app Z)) (map mo_fg_hx os) (map fst calls)) in *.
  assert (In' : forall b i, (b < B)%nat -> (i < H + I)%nat -> (Qabs (xn b i) <= 1)%Q /\ steady Bipolar (h_q n w q) (h_K n w K) (xn b i) (lane hn b i)).
  { intros b i Hb Hi. unfold hn. rewrite (lane_cat B H I) by (assumption || (rewrite !map_length; exact Lo)). unfold xn, joined. destruct (Nat.ltb_spec i H) as [X|X].
    - split; [|apply S3; assumption]. pose proof (Hxe b i Hb X) as R. pose proof (F01 b i) as R2. apply qabs_le.
      pose proof (mul_within (qentry hxb b i) (F b i) 1 ltac:(cbv [src_ok] in R; lra) ltac:(lra)). split; lra.
    - destruct (Hin b (i - H)%nat Hb ltac:(lia)) as [[R1 R2] R3]. split; [apply qabs_le; split; lra|].
      assert (N2 : (2 <= n)%Q) by (unfold n; change 2%Q with (inject_Z 2); rewrite <- Zle_Qle; unfold b2z; destruct bias; lia).
      apply (steady_le Bipolar q (h_q n w q) K (h_K n w K)); [|exact G1|exact R3]. apply (rates n e q N2 ltac:(lra) Hq). }
  pose proof (cat_ok B H I _ _ Ffh Fin) as Ohn. fold hn in Ohn.
  assert (HQ : (0 <= h_q n w q)%Q).
  { unfold h_q, f_q, gate_q. fold e. assert (X : (n * (q + e) / 2 == n * (q + e) * (1 # 2))%Q) by field. rewrite X. pose proof (Qmult_le_compat_r 1 n (q + e) N1 ltac:(lra)). lra. }
  pose proof (linear_steady (ext 1%nat) w mn rn Bipolar Ln (Some 1%Q) cn an Bn0 Nm Hr Hw (HV 1%nat ltac:(lia)) Wn Bn B false [] hn xn (h_q n w q) (h_K n w K) HB ltac:(constructor) Ohn (fun _ => eq_refl) HQ G3 In') as TN.
  cbv zeta in TN. cbn [scale_of left_over app] in TN. change (ly_entries Ln) with (Z.of_nat (H + I) + b2z bias) in TN. fold n in TN. change (ly_depth Ln) with depth in TN. fold lim in TN.
  specialize (TN ltac:(lra)). rewrite slack_bi in TN. fold s in TN. specialize (TN ltac:(lra)).
  destruct TN as (os1 & on & RN & L1' & _ & _ & _ & TN). destruct os1; [|discriminate L1']. cbn [app] in RN. rewrite Rn in RN. injection RN as <-.
  set (G := fun b j => Spec.mgu_new (fun v => v) H I (qentry wf) (qentry wn) (bias_entry (if bias then bf else None)) (bias_entry (if bias then bn else None)) (qentry hxb b) (x b) j).
  assert (GU : forall b j, (-1 <= G b j <= 1)%Q) by (intros b j; apply clamp_unit).
  assert (S4' : forall b j, (b < B)%nat -> (j < H)%nat -> steady Bipolar (g_q n w q) (g_K n w K) (G b j) (lane (map mo_ng os) b j)).
  { intros b j Hb Hj. specialize (TN b j Hb Hj). eapply steady_ext; [| | |exact TN]; [unfold g_q, gate_q; fold e; field|unfold g_K, gate_K; rewrite slack_bi; fold s; field|].
    rewrite An. reflexivity. }
  clear TN Bn0.
  intros b j Hb Hj. cbv zeta. fold (F b j). fold (G b j). destruct (P b j Hb Hj) as (_ & _ & P3 & P4).
  pose proof (S2 b j Hb Hj) as T2. pose proof (S3 b j Hb Hj) as T3. pose proof (S4' b j Hb Hj) as T4.
  pose proof (Bits mo_fg b j B2 Hb Hj) as Y2. pose proof (Bits mo_fg_hx b j B3 Hb Hj) as Y3. pose proof (Bits mo_ng b j B4 Hb Hj) as Y4. pose proof (Bits mo_fg_ng b j B5 Hb Hj) as Y5.
  assert (Le : forall p : mgu_obs -> list (list Z), length (lane (map p os) b j) = length calls) by (intros p; rewrite LinearProof.lane_length, map_length; exact Lo).
  pose proof (Le mo_fg) as L2. pose proof (Le mo_fg_hx) as L3. pose proof (Le mo_ng) as L4. pose proof (Le mo_fg_ng) as L5.
  split; [exact T2|]. split; [exact T3|]. split; [exact T4|].
  set (fg := lane (map mo_fg os) b j) in *. set (fh := lane (map mo_fg_hx os) b j) in *. set (ng := lane (map mo_ng os) b j) in *. set (fn := lane (map mo_fg_ng os) b j) in *.
  set (hy := lane (map mo_hy os) b j) in *.
  assert (QF : (0 <= f_q n w q)%Q) by (unfold h_q in HQ; fold e in HQ; unfold f_q, gate_q; fold e; apply Qle_shift_div_l; [lra|]; pose proof (Qmult_le_compat_r 1 n (q + e) N1 ltac:(lra)); lra).
  assert (QG : (0 <= g_q n w q)%Q) by (unfold g_q, gate_q; fold e; pose proof (Qmult_le_compat_r 1 n (h_q n w q + e) N1 ltac:(lra)); lra).
  assert (T5 : steady Bipolar (p_q n w wm q K) (p_K n w wm K) (F b j * G b j) fn).
  { destruct (map_fst_map2 fg ng ltac:(lia)) as [M1 M2].
    pose proof (instream_steady Bipolar (ext 3%nat) wm dimr [] (map2 pair fg ng) (F b j) (G b j) (f_q n w q) (f_K n w K) (g_q n w q) (g_K n w K) Hwm (HV 3%nat ltac:(lia)) ltac:(constructor)) as T.
    rewrite M1, M2 in T. rewrite P3, C4, C7. cbn [length skipn app] in T.
    pose proof (p2_power wm) as PW. pose proof (inj_pos _ (p2_pos wm)) as PP.
    assert (PB : pair_bits (map2 pair fg ng)).
    { unfold pair_bits. apply Forall_forall. intros p Hp.
      assert (I1 : In (fst p) fg) by (rewrite <- M1; apply in_map; exact Hp). assert (I2 : In (snd p) ng) by (rewrite <- M2; apply in_map; exact Hp).
      unfold bits in Y2, Y4. rewrite Forall_forall in Y2, Y4. split; [apply Y2|apply Y4]; assumption. }
    pose proof (F01 b j) as FB. pose proof (GU b j) as GB.
    eapply steady_ext; [| | |apply (T PB); try assumption; cbv [src_ok]; lra].
    - unfold p_q. rewrite PW. reflexivity.
    - unfold p_K. rewrite slack_bi, PW. ring.
    - reflexivity. }
  split; [exact T5|].
  assert (QP : (0 <= p_q n w wm q K)%Q).
  { unfold p_q. assert (PP : (0 < Qpower 2 (Z.of_nat wm))%Q) by (rewrite <- p2_power; apply inj_pos, p2_pos).
    assert (0 <= 2 * g_K n w K / Qpower 2 (Z.of_nat wm))%Q by (apply Qle_shift_div_l; lra). lra. }
  pose proof (inverted_steady _ _ _ fn Y5 PK T5) as T5'.
  rewrite P4. set (add := {| fa_mode := Bipolar; fa_scale := Some 1%Q; fa_depth := mg_depth c; fa_entry := Some 3 |}).
  set (cols := map (fun t => [nth t ng 0; 1 - nth t fn 0; nth t fh 0]) (seq 0 (length calls))).
  assert (Oc : Forall (fun col => bits col /\ length col = 3%nat) cols).
  { apply Forall_forall. intros col Hcol. apply in_map_iff in Hcol. destruct Hcol as (t & <- & _). split; [|reflexivity].
    pose proof (bits_nth ng t Y4) as X1. pose proof (bits_nth fn t Y5) as X2. pose proof (bits_nth fh t Y3) as X3.
    unfold bits. apply Forall_cons; [exact X1|]. apply Forall_cons; [destruct X2 as [-> | ->]; [right|left]; reflexivity|]. apply Forall_cons; [exact X3|apply Forall_nil]. }
  assert (Col : forall xs : list Z, length xs = length calls -> map (fun t => nth t xs 0) (seq 0 (length calls)) = xs) by (intros xs <-; apply map_nth_id).
  pose proof (adder_steady add Bipolar 3 1%Q eq_refl eq_refl eq_refl ltac:(lra) false [] cols
    (fun i => match i with O => g_q n w q | S O => p_q n w wm q K | _ => h_q n w q end)
    (fun i => match i with O => g_K n w K | S O => p_K n w wm K | _ => h_K n w K end)
    (fun i => match i with O => G b j | S O => - (F b j * G b j) | _ => F b j * qentry hxb b j end)%Q (fun _ => eq_refl) Oc) as T.
  cbn [length skipn app] in T.
  eapply steady_ext; [| | |apply T].
  - unfold y_q, qtotal. cbn [seq map qsum]. field.
  - unfold y_K, qtotal. cbn [seq map qsum]. field.
  - unfold qtotal. cbn [seq map qsum]. unfold Spec.mgu_next. cbv zeta. fold (F b j). fold (G b j). rewrite clip_clamp.
    pose proof (convex_unit (F b j) (G b j) (qentry hxb b j) (F01 b j) (GU b j) (Hxe b j Hb Hj)) as CU. unfold in_unit in CU.
    rewrite qclamp_id; [field| |]; (match goal with |- (?a <= ?b / 1)%Q => setoid_replace (b / 1)%Q with b by field | |- (?a / 1 <= ?b)%Q => setoid_replace (a / 1)%Q with a by field end); lra.
  - intros i Hi. destruct i as [|[|[|i]]]; [| | |lia].
    + split; [exact QG|]. split; [exact G4|]. unfold cols. rewrite map_map. cbn [nth]. rewrite (Col ng L4). exact T4.
    + split; [exact QP|]. split; [exact PK|]. unfold cols. rewrite map_map. cbn [nth].
      assert (X : map (fun t => 1 - nth t fn 0) (seq 0 (length calls)) = map (fun v => 1 - v) fn) by (rewrite <- (f_equal (map (fun v => 1 - v)) (Col fn L5)), map_map; reflexivity).
      rewrite X. exact T5'.
    + split; [exact HQ|]. split; [exact G3|]. unfold cols. rewrite map_map. cbn [nth]. rewrite (Col fh L3). exact T3.
  - unfold qtotal. cbn [seq map qsum fa_depth add]. rewrite C3. fold lim. lra.
Qed.

(** ** HUBMGUCell *)
Lemma entries_all (P : Q -> Prop) r c m : qshape r c m -> (forall b j, (b < r)%nat -> (j < c)%nat -> P (qentry m b j)) -> Forall (Forall P) m.
Proof.
  intros [S1 S2] H. apply Forall_forall. intros row Hr. apply (In_nth _ _ []) in Hr. destruct Hr as (b & Hb & <-).
  pose proof (Forall_nth_lt _ m b [] S2 Hb) as R. cbv beta in R. apply Forall_forall. intros z Hz. apply (In_nth _ _ 0%Q) in Hz. destruct Hz as (j & Hj & <-). apply H; lia.
Qed.
Lemma all_entries (P : Q -> Prop) r c m : qshape r c m -> Forall (Forall P) m -> forall b j, (b < r)%nat -> (j < c)%nat -> P (qentry m b j).
Proof.
  intros [S1 S2] H b j Hb Hj. unfold qentry. pose proof (Forall_nth_lt _ m b [] S2 ltac:(lia)) as R. pose proof (Forall_nth_lt _ m b [] H ltac:(lia)) as R'. cbv beta in R, R'.
  apply (Forall_nth_lt _ _ j 0%Q R'). lia.
Qed.
Lemma steady_whole m q K v xs : xs <> [] -> steady m q K v xs -> (Qabs (value m xs - v) <= q + span m * K / inject_Z (Z.of_nat (length xs)))%Q.
Proof.
  intros N S. assert (L : (0 < length xs)%nat) by (destruct xs; [congruence|cbn; lia]). specialize (S 0%nat (length xs) ltac:(lia)).
  unfold stretch in S. rewrite firstn_all in S. cbn [skipn] in S. rewrite Nat.sub_0_r in S. exact S.
Qed.
Theorem hubmgu_error : forall ext I H bias wf bf wn bn w mn depth wm rn dimr input hx,
  lower mn = "bipolar"%string -> named rn ["sobol"%string; "rc"%string] -> (1 <= w <= 30)%nat -> (wm <= 30)%nat ->
  (forall k, (k < 6)%nat -> dirvec_ok 30 (ext_dirvec (ext k) dimr)) -> mgu_args_ok I H bias wf wn bf bn ->
  Forall (Forall (src_ok Bipolar)) wf -> src_opt Bipolar bf -> Forall (Forall (src_ok Bipolar)) wn -> src_opt Bipolar bn ->
  (1 <= length input)%nat -> qshape (length input) I input -> Forall (Forall (src_ok Bipolar)) input ->
  match hx with None => True | Some h => qshape (length input) H h /\ Forall (Forall (src_ok Bipolar)) h end ->
  let n := inject_Z (Z.of_nat (H + I) + b2z bias) in let q := (grid_step Bipolar w / 2)%Q in let K := (2 * inject_Z (Z.of_nat w))%Q in
  (g_K n w K + p_K n w wm K + h_K n w K + 2 <= Qpower 2 (depth - 2))%Q ->
  let par := {| mg_wf := wf; mg_bf := if bias then bf else None; mg_wn := wn; mg_bn := if bias then bn else None |} in
  exists y, hubmgu ext I H bias (Some wf) bf (Some wn) bn w mn depth wm rn dimr input hx = Ok y /\ qshape (length input) H y /\
  forall b j, (b < length input)%nat -> (j < H)%nat ->
    (Qabs (qentry y b j - qentry (mv_hy (hardmgu_forward H par input hx)) b j) <= y_q n w wm q K + 2 * y_K n w wm K / Qpower 2 (Z.of_nat w))%Q.
Proof.
  intros ext I H bias wf bf wn bn w mn depth wm rn dimr input hx Hm Hr Hw Hwm HV Ha Wf Bf Wn Bn HB Si Hi Hh n q K Hd par.
  pose proof (proj1 (rng_names rn) Hr) as Hk.
  assert (Hh1 : match hx with None => True | Some h => qshape (length input) H h end) by (destruct hx; [apply Hh|exact Logic.I]).
  destruct (hubmgu_value ext I H bias wf bf wn bn w mn depth wm rn dimr KSobol input hx Hm Hk eq_refl Ha HB Si Hh1) as (c & calls & os & y & (hb & Sb & Eb & Ec) & Lc & Oc & Li & Lh & Eo & Ey & Sy & V).
  exists y. split; [exact Ey|]. split; [exact Sy|]. intros b j Hb Hj. set (B := length input) in *.
  assert (H0 : forall b j, (b < B)%nat -> (j < H)%nat -> src_ok Bipolar (state_entry hx b j)).
  { intros b' j' Hb' Hj'. destruct hx as [h|]; cbn [state_entry]; [|cbv [src_ok]; lra]. exact (all_entries _ B H h (proj1 Hh) (proj2 Hh) b' j' Hb' Hj'). }
  assert (Hb2 : Forall (Forall (src_ok Bipolar)) hb).
  { apply (entries_all _ B H); [exact Sb|]. intros b' j' Hb' Hj'. rewrite Eb by assumption. exact (H0 b' j' Hb' Hj'). }
  destruct (mgu_new_ok ext I H bias wf bf wn bn hb w mn depth wm rn dimr KSobol Hm Hk eq_refl Ha) as (c' & Ec' & _ & C1 & C2 & _). rewrite Ec in Ec'. injection Ec' as <-.
  pose proof (grid_step_pos Bipolar w) as GP. assert (Q0 : (0 <= q)%Q) by (unfold q; apply Qle_shift_div_l; lra).
  assert (K0 : (0 <= K)%Q) by (unfold K; assert (0 <= inject_Z (Z.of_nat w))%Q by (change 0%Q with (inject_Z 0); rewrite <- Zle_Qle; lia); lra).
  destruct (mgu_steady ext I H bias wf bf wn bn hb w mn depth wm rn dimr c Ec Hr Hw Hwm (fun k Hk' => HV k ltac:(lia)) Wf Bf Wn Bn B calls (fun b i => qentry input b i) q K HB Sb Hb2) as (os' & Eo' & Lo & S).
  - eapply Forall_impl; [|exact Oc]. unfold call_ok. rewrite C1, C2. tauto.
  - exact Q0.
  - exact K0.
  - intros b' i' Hb' Hi'. split; [exact (all_entries _ B I input Si Hi b' i' Hb' Hi')|]. rewrite (Li b' i' Hb' Hi').
    apply (source_steady Bipolar (ext 4%nat) w dimr _ 0); [lia|apply HV; lia|exact (all_entries _ B I input Si Hi b' i' Hb' Hi')].
  - intros b' j' Hb' Hj'. rewrite (Lh b' j' Hb' Hj'), (Eb b' j' Hb' Hj').
    apply (source_steady Bipolar (ext 5%nat) w dimr _ 0); [lia|apply HV; lia|exact (H0 b' j' Hb' Hj')].
  - exact Hd.
  - rewrite Eo in Eo'. injection Eo' as <-. destruct (S b j Hb Hj) as (_ & _ & _ & _ & T). fold n in T.
    assert (Ll : length (lane (map mo_hy os) b j) = (2 ^ w)%nat) by (rewrite LinearProof.lane_length, map_length, Lo; exact Lc).
    assert (P0 : (2 ^ w <> 0)%nat) by (apply Nat.pow_nonzero; lia).
    apply steady_whole in T; [|intros X; rewrite X in Ll; cbn in Ll; lia]. rewrite Ll in T.
    assert (PW : (inject_Z (Z.of_nat (2 ^ w)) == Qpower 2 (Z.of_nat w))%Q) by (rewrite <- p2_power, p2_nat; reflexivity). rewrite PW in T.
    destruct (V b j Hb Hj) as (V1 & _). rewrite V1. eapply Qle_trans; [|exact T]. apply Qle_lteq. right.
    assert (Ev : (qentry (mv_hy (hardmgu_forward H par input hx)) b j == Spec.mgu_next H I (qentry wf) (qentry wn) (bias_entry (if bias then bf else None)) (bias_entry (if bias then bn else None)) (qentry hb b) (qentry input b) j)%Q).
    { destruct Ha as (A1 & A2 & A3).
      assert (BO : forall be, (bias = true -> exists f, be = Some f /\ length f = H) -> bias_ok H (if bias then be else None)).
      { intros be X. destruct bias; [|exact Logic.I]. destruct (X eq_refl) as (f & -> & L). exact L. }
      assert (PO : mgu_par_ok H I par).
      { unfold mgu_par_ok, par. cbn [mg_wf mg_bf mg_wn mg_bn]. split; [exact (shape2_spec _ _ _ A1)|]. split; [apply BO; intros E; destruct (A3 E) as (f & g & ? & ? & ? & ?); eauto|].
        split; [exact (shape2_spec _ _ _ A2)|]. apply BO; intros E; destruct (A3 E) as (f & g & ? & ? & ? & ?); eauto. }
      destruct (mgu_values B H I par input hx PO Si Hh1 (fun b j Hb Hj => H0 b j Hb Hj)) as [_ MV]. destruct (MV b j Hb Hj) as (_ & _ & _ & _ & _ & _ & _ & _ & MY & _).
      cbn [mg_wf mg_bf mg_wn mg_bn par] in MY. rewrite MY.
      assert (EX : forall i, (i < H)%nat -> (state_entry hx b i == qentry hb b i)%Q) by (intros i Hi'; rewrite (Eb b i Hb Hi'); reflexivity).
      unfold Spec.mgu_next. cbv zeta.
      rewrite (forget_ext (fun v => v) (fun _ _ e => e) H I (qentry wf) (bias_entry (if bias then bf else None)) (state_entry hx b) (qentry hb b) (qentry input b) (qentry input b) j EX (fun _ _ => Qeq_refl _)).
      rewrite (new_ext (fun v => v) (fun _ _ e => e) H I (qentry wf) (qentry wn) (bias_entry (if bias then bf else None)) (bias_entry (if bias then bn else None)) (state_entry hx b) (qentry hb b) (qentry input b) (qentry input b) j EX (fun _ _ => Qeq_refl _)).
      rewrite (EX j Hj). reflexivity. }
    rewrite Ev. reflexivity.
Qed.
