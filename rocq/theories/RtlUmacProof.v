(** * Proofs about the uMAC units (RtlMacModel.v): the layers they implement. *)
From Coq Require Import Lqa.
Require Import Verif.BaseLemmas Verif.GenModel Verif.AddModel Verif.KernelModel Verif.LinearModel Verif.RtlModel Verif.RtlMacModel Verif.RtlMacSpec.
Require Import Verif.GenProof Verif.SobolProof Verif.AddProof Verif.KernelProof Verif.LinearProof Verif.RtlProof Verif.RtlRngProof Verif.RtlAddProof Verif.RtlMacProof.
Open Scope Z_scope.

Lemma lanes_cols {M I} (mul : M -> I -> M * Z) (d : M) (e : I) n : forall h muls, length muls = n -> Forall (fun r => length r = n) h ->
  outs (mac_lanes mul) muls h = tab (length h) (fun t => tab n (fun i => nth t (outs mul (nth i muls d) (map (fun r => nth i r e) h)) 0)).
Proof.
  induction h as [|x h IH]; intros muls Lm Hh; [reflexivity|]. rewrite outs_cons. pose proof (Forall_inv Hh) as Lx. cbv beta in Lx.
  assert (E : muls = map (fun i => nth i muls d) (seq 0 n)).
  { rewrite <- Lm. apply (list_eq_nth _ _ d); [rewrite map_length, seq_length; reflexivity|]. intros i Hi.
    rewrite (nth_indep (map _ _) d (nth (length muls) muls d)) by (rewrite map_length, seq_length; exact Hi).
    rewrite (map_nth (fun i => nth i muls d)), seq_nth by exact Hi. reflexivity. }
  assert (S : mac_lanes mul muls x = (map (fun i => fst (mul (nth i muls d) (nth i x e))) (seq 0 n), map (fun i => snd (mul (nth i muls d) (nth i x e))) (seq 0 n))).
  { rewrite E at 1. exact (lanes_tab mul (fun i => nth i muls d) e n x Lx). }
  rewrite S. cbn [fst snd length]. unfold tab at 1. rewrite <- cons_seq, map_cons. f_equal.
  { apply tab_ext. intros i Hi. cbn [map]. rewrite outs_cons. reflexivity. }
  rewrite IH by (try exact (Forall_inv_tail Hh); rewrite map_length; apply seq_length).
  unfold tab at 1. rewrite <- seq_shift, map_map. apply map_ext. intros t. apply tab_ext. intros i Hi. cbn [map]. rewrite outs_cons. cbn [nth]. f_equal. f_equal.
  rewrite (nth_indep (map _ _) d (fst (mul (nth 0 muls d) (nth 0 x e)))) by (rewrite map_length, seq_length; exact Hi).
  rewrite (map_nth (fun i => fst (mul (nth i muls d) (nth i x e)))), seq_nth by exact Hi. reflexivity.
Qed.

Lemma mac_prods_tab m rng Bs h : mac_prods m rng Bs h =
  tab (length h) (fun t => tab 16 (fun i => nth t (outs (fsumul_static_step m (nth i Bs 0) rng) fsumul_static_init (map (fun r => nth i r 0) h)) 0)).
Proof. reflexivity. Qed.
Lemma mac_prods_length m rng Bs h : length (mac_prods m rng Bs h) = length h.
Proof. rewrite mac_prods_tab. apply tab_length. Qed.
Lemma mac_prods_ok m rng Bs h : (0 < length rng)%nat -> mac_bits h -> Forall (fun col => length col = 16%nat /\ bits col) (mac_prods m rng Bs h).
Proof.
  intros Hr Hh. unfold mac_bits in Hh. unfold mac_prods. apply Forall_forall. intros col Hc. apply in_map_iff in Hc. destruct Hc as (t & <- & Ht). apply in_seq in Ht.
  split; [rewrite map_length; apply seq_length|]. apply Forall_forall. intros z Hz. apply in_map_iff in Hz. destruct Hz as (i & <- & Hi). apply in_seq in Hi.
  assert (Hb : bits (map (fun r => nth i r 0) h)).
  { apply Forall_forall. intros y Hy. apply in_map_iff in Hy. destruct Hy as (r & <- & Hr'). rewrite Forall_forall in Hh. destruct (Hh r Hr') as [L Hb].
    apply (Forall_nth_lt bit _ i 0 Hb). lia. }
  assert (G : bits (outs (fsumul_static_step m (nth i Bs 0) rng) fsumul_static_init (map (fun r => nth i r 0) h))).
  { destruct m; [destruct (mul_static_uni (nth i Bs 0) rng _ Hr Hb) as (_ & G & _)|destruct (mul_static_bi (nth i Bs 0) rng _ Hr Hb) as (_ & G & _)]; exact G. }
  apply (Forall_nth_lt bit _ t 0 G). rewrite outs_length, map_length. lia.
Qed.

Definition mac_last (m : mode) (rng Bs : list Z) (h : list (list Z)) (z : list Z) : list Z :=
  tab 16 (fun i => nth (length h) (outs (fsumul_static_step m (nth i Bs 0) rng) fsumul_static_init (map (fun r => nth i r 0) (h ++ [z]))) 0).
Lemma mac_prods_snoc m rng Bs h z : mac_prods m rng Bs (h ++ [z]) = mac_prods m rng Bs h ++ [mac_last m rng Bs h z].
Proof.
  rewrite mac_prods_tab. rewrite app_length. cbn [length]. rewrite Nat.add_1_r. unfold tab at 1. rewrite seq_S, map_app. cbn [map Nat.add]. f_equal.
  apply map_ext_in. intros t Ht. apply in_seq in Ht. apply tab_ext. intros i Hi. rewrite map_app, outs_app, app_nth1; [reflexivity|].
  rewrite outs_length, map_length. lia.
Qed.

Lemma umac_cols_uni ext w Bs h : (1 <= w <= 30)%nat -> torch_dim1 ext -> length Bs = 16%nat -> mac_bits (map (map fst) h) ->
  (forall i, (i < 16)%nat -> ones (map (fun r => nth i r 0) (map (map fst) h)) <= p2 w) ->
  outs (mac_lanes (umul_uni w)) (map (fun B => (B, sobol_rtl_init)) Bs) (map (map (fun p => (fst p, snd p, 0))) h) =
  mac_prods Unipolar (rng_seq ext KSobol w 1) Bs (map (map fst) h).
Proof.
  intros Hw He HB Hh Ho.
  rewrite (lanes_cols (umul_uni w) (0, sobol_rtl_init) (0, 0, 0) 16); [|rewrite map_length; exact HB|].
  2:{ rewrite Forall_map. unfold mac_bits in Hh. rewrite Forall_map in Hh. eapply Forall_impl; [|exact Hh]. intros r [L _]. rewrite map_length in *. exact L. }
  rewrite mac_prods_tab. rewrite !map_length. apply tab_ext. intros t Ht. apply tab_ext. intros i Hi.
  rewrite (map_nth (fun B => (B, sobol_rtl_init)) Bs 0 i). rewrite !map_map.
  pose proof (umul_uni_equiv ext w (nth i Bs 0) (map (fun r => nth i r (0, 0)) h) Hw He) as U. rewrite !map_map in U.
  assert (E1 : map (fun r => nth i (map fst r) 0) h = map (fun r : list (Z * Z) => fst (nth i r (0, 0))) h).
  { apply map_ext. intros r. apply (map_nth fst r (0, 0)). }
  rewrite E1. rewrite <- U.
  - f_equal. f_equal. apply map_ext. intros r. exact (map_nth (fun p : Z * Z => (fst p, snd p, 0)) r (0, 0) i).
  - rewrite <- E1. apply Forall_forall. intros y Hy. apply in_map_iff in Hy. destruct Hy as (r & <- & Hr').
    unfold mac_bits in Hh. rewrite Forall_map, Forall_forall in Hh. destruct (Hh r Hr') as [L Hb]. apply (Forall_nth_lt bit _ i 0 Hb). lia.
  - rewrite <- E1. specialize (Ho i Hi). rewrite map_map in Ho. exact Ho.
Qed.
Lemma umac_cols_bi ext w Bs h : (1 <= w <= 30)%nat -> torch_dim1 ext -> length Bs = 16%nat -> mac_bits (map (map fst) h) ->
  (forall i, (i < 16)%nat -> ones (map (fun r => nth i r 0) (map (map fst) h)) <= p2 w /\ zeros (map (fun r => nth i r 0) (map (map fst) h)) <= p2 w) ->
  outs (mac_lanes (umul_bi w)) (map (fun B => (B, (sobol_rtl_init, sobol_rtl_init))) Bs) (map (map (fun p => (fst p, snd p, 0))) h) =
  mac_prods Bipolar (rng_seq ext KSobol w 1) Bs (map (map fst) h).
Proof.
  intros Hw He HB Hh Ho.
  rewrite (lanes_cols (umul_bi w) (0, (sobol_rtl_init, sobol_rtl_init)) (0, 0, 0) 16); [|rewrite map_length; exact HB|].
  2:{ rewrite Forall_map. unfold mac_bits in Hh. rewrite Forall_map in Hh. eapply Forall_impl; [|exact Hh]. intros r [L _]. rewrite map_length in *. exact L. }
  rewrite mac_prods_tab. rewrite !map_length. apply tab_ext. intros t Ht. apply tab_ext. intros i Hi.
  rewrite (map_nth (fun B => (B, (sobol_rtl_init, sobol_rtl_init))) Bs 0 i). rewrite !map_map.
  pose proof (umul_bi_equiv ext w (nth i Bs 0) (map (fun r => nth i r (0, 0)) h) Hw He) as U. rewrite !map_map in U.
  assert (E1 : map (fun r => nth i (map fst r) 0) h = map (fun r : list (Z * Z) => fst (nth i r (0, 0))) h).
  { apply map_ext. intros r. apply (map_nth fst r (0, 0)). }
  rewrite E1. specialize (Ho i Hi). rewrite map_map in Ho. rewrite <- U.
  - f_equal. f_equal. apply map_ext. intros r. exact (map_nth (fun p : Z * Z => (fst p, snd p, 0)) r (0, 0) i).
  - rewrite <- E1. apply Forall_forall. intros y Hy. apply in_map_iff in Hy. destruct Hy as (r & <- & Hr').
    unfold mac_bits in Hh. rewrite Forall_map, Forall_forall in Hh. destruct (Hh r Hr') as [L Hb]. apply (Forall_nth_lt bit _ i 0 Hb). lia.
  - rewrite <- E1. exact (proj1 Ho).
  - rewrite <- E1. exact (proj2 Ho).
Qed.

(** The layer with sixteen inputs, one output and no bias adds the same products. *)
Lemma layer16 m rng Bs scale depth hb : (0 < length rng)%nat -> length Bs = 16%nat -> mac_bits hb ->
  let c := layer16_cfg m rng Bs in let a := flin_acc_cfg c scale depth in
  exists os, outputs (run_r (flin_step c a) (flin_init c) (no_args (map (fun r => [r]) hb))) = Some os /\
  lane os 0 0 = outs (fsuadd_step a) (fsuadd_init a) (map (fun col => [zsum col]) (mac_prods m rng Bs hb)).
Proof.
  intros Hr HB Hb c a. set (hh := map (fun r => [r]) hb).
  assert (Hs : pc_shape c).
  { unfold c. split; [reflexivity|]. split; [|exact Logic.I]. constructor; [exact HB|constructor]. }
  assert (Hh : Forall (batch_ok 1 (pc_in c)) hh).
  { unfold hh. rewrite Forall_map. eapply Forall_impl; [|exact Hb]. intros x (Hx1 & Hx2).
    split; [reflexivity|]. constructor; [split; assumption|constructor]. }
  destruct (flin_run c a 1 (no_args hh) Hs (le_n 1)) as (pc & _ & E); [rewrite fl_inputs_no_args; exact Hh|].
  rewrite E. clear E. eexists. split; [reflexivity|].
  assert (Lhh : length hh = length hb) by (unfold hh; apply map_length).
  assert (Lh : length (no_args hh) = length hb) by (unfold no_args; rewrite map_length; exact Lhh). rewrite Lh.
  unfold lane. rewrite map_tab.
  transitivity (outs (fsuadd_call a) (fsuadd_init a) (fl_calls c (no_args hh) 0 0)).
  { rewrite <- (outs_tab_nth (fsuadd_call a) (fsuadd_init a) (fl_calls c (no_args hh) 0 0) (length hb) 0).
    2:{ unfold fl_calls. rewrite tab_length. exact Lh. }
    apply tab_ext. intros t Ht. apply (tab2_entry 1 1); lia. }
  rewrite flin_lane_cols. unfold outs at 1. rewrite <- fsuadd_step_call.
  fold (outs (fsuadd_step a) (fsuadd_init a) (tab (length hh) (fun t => [pc_out_at c hh t 0 0]))). f_equal.
  rewrite mac_prods_tab. rewrite map_tab, Lhh. apply tab_ext. intros t Ht. f_equal.
  unfold pc_out_at, pc_bbit. unfold c at 1 6. cbn [pc_in pc_bias layer16_cfg]. rewrite ?Z.add_0_r. f_equal. apply tab_ext. intros i Hi.
  rewrite (pc_prod_rate c 1 hh t 0 0 i); try reflexivity; try assumption; try lia.
  - unfold c, layer16_cfg at 1 2 3. cbn [pc_mode pc_weight pc_rng entry2 nth]. f_equal. f_equal. unfold lane, hh. rewrite map_map. reflexivity.
Qed.

(** Only the sums matter to an adder that knows its entry. *)
Lemma add_lane_sums lim s off cols : forall acc, outs (add_lane lim s off) acc (map (fun col => [zsum col]) cols) = outs (add_lane lim s off) acc cols.
Proof.
  induction cols as [|c cols IH]; intros acc; [reflexivity|]. cbn [map]. rewrite !outs_cons.
  assert (E : add_lane lim s off acc [zsum c] = add_lane lim s off acc c) by (unfold add_lane; cbn [zsum]; rewrite Z.add_0_r; reflexivity).
  rewrite E, IH. reflexivity.
Qed.
Lemma unit_layer m depth c cols : pc_mode c = m -> flin_entry c = 16 -> Forall (fun col => length col = 16%nat /\ bits col) cols ->
  outs (fsuadd_step (flin_acc_cfg c (Some 1%Q) depth)) (fsuadd_init (flin_acc_cfg c (Some 1%Q) depth)) (map (fun col => [zsum col]) cols) =
  outs (fsuadd_step (unit_cfg m depth)) (fsuadd_init (unit_cfg m depth)) cols.
Proof.
  intros Em Ee HF. destruct cols as [|col cols]; [reflexivity|]. cbn [map].
  destruct (fsuadd_step_run (flin_acc_cfg c (Some 1%Q) depth) [zsum col] (map (fun col => [zsum col]) cols)) as [-> _].
  destruct (fsuadd_step_run (unit_cfg m depth) col cols) as [-> _].
  unfold flin_acc_cfg, unit_cfg, resolved_entry, resolved_scale. cbn [fa_mode fa_scale fa_depth fa_entry]. rewrite Em, Ee.
  unfold zlen at 1. destruct (Forall_inv HF) as [-> _]. apply (add_lane_sums _ _ _ (col :: cols)).
Qed.

Lemma umac_bi_scaled_equiv ext w depth Bs h : (1 <= w <= 30)%nat -> torch_dim1 ext -> 7 <= depth -> length Bs = 16%nat -> mac_bits (map (map fst) h) ->
  (forall i, (i < 16)%nat -> ones (map (fun r => nth i r 0) (map (map fst) h)) <= p2 w /\ zeros (map (fun r => nth i r 0) (map (map fst) h)) <= p2 w) ->
  let c := layer16_cfg Bipolar (rng_seq ext KSobol w 1) Bs in
  exists os, outputs (run_r (flin_step c (flin_acc_cfg c None depth)) (flin_init c) (no_args (map (fun r => [map fst r]) h))) = Some os /\
  outs (umac_bi_scaled w) (map (fun B => (B, (sobol_rtl_init, sobol_rtl_init))) Bs, usadd_init) (map (map (fun p => (fst p, snd p, 0))) h) = lane os 0 0.
Proof.
  intros Hw He Hd HB Hh Ho c.
  assert (Hr : (0 < length (rng_seq ext KSobol w 1))%nat) by (rewrite torch_seq_length by lia; pose proof (Nat.pow_nonzero 2 w ltac:(lia)); lia).
  destruct (layer16 Bipolar (rng_seq ext KSobol w 1) Bs None depth (map (map fst) h) Hr HB Hh) as (os & E1 & E2).
  rewrite map_map in E1. exists os. split; [exact E1|]. rewrite E2. clear E1 E2 os.
  unfold umac_bi_scaled. rewrite wired_outs, (umac_cols_bi ext w Bs h Hw He HB Hh Ho).
  pose proof (mac_prods_ok Bipolar _ Bs _ Hr Hh) as Hc. set (cols := mac_prods Bipolar _ Bs _) in *. clearbody cols. fold c.
  rewrite (usadd_outs usadd16 16); [|lia|intros x y Hx Hl Hb'; apply usadd16_spec; assumption|exact Hc|unfold usadd_init; lia].
  destruct cols as [|col cols]; [reflexivity|]. change (map (fun col => [zsum col]) (col :: cols)) with ([zsum col] :: map (fun col => [zsum col]) cols).
  destruct (fsuadd_step_run (flin_acc_cfg c None depth) [zsum col] (map (fun col => [zsum col]) cols)) as [-> _].
  unfold flin_acc_cfg, resolved_entry, resolved_scale. cbn [fa_mode fa_scale fa_depth fa_entry]. change (flin_entry c) with 16.
  symmetry. change ([zsum col] :: map (fun col => [zsum col]) cols) with (map (fun col => [zsum col]) (col :: cols)). rewrite add_lane_sums.
  apply int_acc_run; [reflexivity|reflexivity|apply depth7; lia| |reflexivity|split; reflexivity || discriminate].
  eapply Forall_impl; [|exact Hc]. intros x [Lx Bx]. exact (bits_sum_range x 16 Lx Bx).
Qed.
Lemma umac_uni_nonscaled_equiv ext w depth Bs h : (1 <= w <= 30)%nat -> torch_dim1 ext -> 11 <= depth -> length Bs = 16%nat -> mac_bits (map (map fst) h) ->
  (forall i, (i < 16)%nat -> ones (map (fun r => nth i r 0) (map (map fst) h)) <= p2 w) ->
  total_ones (mac_prods Unipolar (rng_seq ext KSobol w 1) Bs (map (map fst) h)) <= 511 ->
  let c := layer16_cfg Unipolar (rng_seq ext KSobol w 1) Bs in
  exists os, outputs (run_r (flin_step c (flin_acc_cfg c (Some 1%Q) depth)) (flin_init c) (no_args (map (fun r => [map fst r]) h))) = Some os /\
  outs (umac_uni_nonscaled w) (map (fun B => (B, sobol_rtl_init)) Bs, unsadd_init) (map (map (fun p => (fst p, snd p, 0))) h) = delayed 0 (lane os 0 0).
Proof.
  intros Hw He Hd HB Hh Ho Ht c.
  assert (Hr : (0 < length (rng_seq ext KSobol w 1))%nat) by (rewrite torch_seq_length by lia; pose proof (Nat.pow_nonzero 2 w ltac:(lia)); lia).
  destruct (layer16 Unipolar (rng_seq ext KSobol w 1) Bs (Some 1%Q) depth (map (map fst) h) Hr HB Hh) as (os & E1 & E2).
  rewrite map_map in E1. exists os. split; [exact E1|]. rewrite E2. clear E1 E2 os.
  unfold umac_uni_nonscaled. rewrite wired_outs, (umac_cols_uni ext w Bs h Hw He HB Hh Ho).
  pose proof (mac_prods_ok Unipolar _ Bs _ Hr Hh) as Hc. fold c. rewrite (unit_layer Unipolar depth c _ eq_refl eq_refl Hc).
  apply unsadd16_equiv; assumption.
Qed.
Lemma umac_bi_nonscaled_equiv ext w depth Bs h z : (1 <= w <= 30)%nat -> torch_dim1 ext -> 11 <= depth -> length Bs = 16%nat ->
  mac_bits (map (map fst) (h ++ [z])) ->
  (forall i, (i < 16)%nat -> ones (map (fun r => nth i r 0) (map (map fst) (h ++ [z]))) <= p2 w /\ zeros (map (fun r => nth i r 0) (map (map fst) (h ++ [z]))) <= p2 w) ->
  (forall p, (p <= length h)%nat -> 0 <= 2 * total_ones (firstn p (mac_prods Bipolar (rng_seq ext KSobol w 1) Bs (map (map fst) h))) - 15 * Z.of_nat p <= 1022) ->
  let c := layer16_cfg Bipolar (rng_seq ext KSobol w 1) Bs in
  exists os, outputs (run_r (flin_step c (flin_acc_cfg c (Some 1%Q) depth)) (flin_init c) (no_args (map (fun r => [map fst r]) h))) = Some os /\
  0 <= ones (outs (umac_bi_nonscaled w) (map (fun B => (B, (sobol_rtl_init, sobol_rtl_init))) Bs, unsadd_init) (map (map (fun p => (fst p, snd p, 0))) (h ++ [z])))
     - ones (lane os 0 0) <= 1.
Proof.
  intros Hw He Hd HB Hh Ho Ht c.
  assert (Hr : (0 < length (rng_seq ext KSobol w 1))%nat) by (rewrite torch_seq_length by lia; pose proof (Nat.pow_nonzero 2 w ltac:(lia)); lia).
  assert (Hh' : mac_bits (map (map fst) h)) by (rewrite map_app in Hh; apply Forall_app in Hh; exact (proj1 Hh)).
  destruct (layer16 Bipolar (rng_seq ext KSobol w 1) Bs (Some 1%Q) depth (map (map fst) h) Hr HB Hh') as (os & E1 & E2).
  rewrite map_map in E1. exists os. split; [exact E1|]. rewrite E2. clear E1 E2 os.
  unfold umac_bi_nonscaled. rewrite wired_outs, (umac_cols_bi ext w Bs (h ++ [z]) Hw He HB Hh Ho).
  pose proof (mac_prods_ok Bipolar _ Bs _ Hr Hh') as Hc'. pose proof (mac_prods_ok Bipolar _ Bs _ Hr Hh) as Hc. fold c.
  rewrite (unit_layer Bipolar depth c _ eq_refl eq_refl Hc').
  rewrite map_app. cbn [map]. rewrite mac_prods_snoc. rewrite map_app in Hc. cbn [map] in Hc. rewrite mac_prods_snoc in Hc.
  apply unsadd15_count; [exact Hd|exact Hc|]. rewrite mac_prods_length, map_length. exact Ht.
Qed.

(** ** Loading the weights *)
Lemma nth_tl {A} t (l : list A) d : nth t (tl l) d = nth (S t) l d.
Proof. destruct l; [destruct t; reflexivity|reflexivity]. Qed.
Lemma map2_nth_pair (x0 Bs : list Z) i : length x0 = 16%nat -> length Bs = 16%nat -> (i < 16)%nat ->
  nth i (map2 (fun x B => (x, B, 1)) x0 Bs) (0, 0, 0) = (nth i x0 0, nth i Bs 0, 1).
Proof. intros L1 L2 Hi. rewrite (map2_nth' _ _ _ i 0 0) by lia. reflexivity. Qed.
Lemma load_cols {M} (mul : M -> Z * Z * Z -> M * Z) (i0 : M) (first : Z -> Z) m rng x0 Bs h :
  length x0 = 16%nat -> length Bs = 16%nat -> Forall (fun r => length r = 16%nat) h ->
  (forall i, (i < 16)%nat -> outs mul i0 ((nth i x0 0, nth i Bs 0, 1) :: map (fun p => (fst p, snd p, 0)) (map (fun r => nth i r (0, 0)) h)) =
    first (nth i x0 0) :: tl (outs (fsumul_static_step m (nth i Bs 0) rng) fsumul_static_init (nth i x0 0 :: map fst (map (fun r => nth i r (0, 0)) h)))) ->
  outs (mac_lanes mul) (repeat i0 16) (map2 (fun x B => (x, B, 1)) x0 Bs :: map (map (fun p => (fst p, snd p, 0))) h) =
  map first x0 :: tl (mac_prods m rng Bs (x0 :: map (map fst) h)).
Proof.
  intros L0 LB Hh H.
  rewrite (lanes_cols mul i0 (0, 0, 0) 16); [|apply repeat_length|].
  2:{ constructor; [rewrite map2_length; lia|]. rewrite Forall_map. eapply Forall_impl; [|exact Hh]. intros r L. cbv beta in *. rewrite map_length. exact L. }
  assert (G : forall i, (i < 16)%nat -> outs mul (nth i (repeat i0 16) i0)
      (map (fun r => nth i r (0, 0, 0)) (map2 (fun x B => (x, B, 1)) x0 Bs :: map (map (fun p => (fst p, snd p, 0))) h)) =
    first (nth i x0 0) :: tl (outs (fsumul_static_step m (nth i Bs 0) rng) fsumul_static_init (map (fun r => nth i r 0) (x0 :: map (map fst) h)))).
  { intros i Hi. assert (Er : nth i (repeat i0 16) i0 = i0) by (apply (repeat_spec 16); apply nth_In; rewrite repeat_length; exact Hi). rewrite Er.
    change (map (fun r => nth i r (0, 0, 0)) (map2 (fun x B => (x, B, 1)) x0 Bs :: map (map (fun p => (fst p, snd p, 0))) h))
      with (nth i (map2 (fun x B => (x, B, 1)) x0 Bs) (0, 0, 0) :: map (fun r => nth i r (0, 0, 0)) (map (map (fun p => (fst p, snd p, 0))) h)).
    rewrite (map2_nth_pair x0 Bs i L0 LB Hi). rewrite !map_map.
    rewrite (map_ext (fun x => nth i (map (fun p : Z * Z => (fst p, snd p, 0)) x) (0, 0, 0)) (fun r => (fun p : Z * Z => (fst p, snd p, 0)) (nth i r (0, 0))))
      by (intros r; exact (map_nth (fun p : Z * Z => (fst p, snd p, 0)) r (0, 0) i)).
    specialize (H i Hi). rewrite !map_map in H. rewrite H. f_equal. f_equal. f_equal. cbn [map]. f_equal. rewrite map_map. apply map_ext.
    intros r. symmetry. exact (map_nth fst r (0, 0) i). }
  unfold tab at 1. cbn [length]. rewrite <- cons_seq, map_cons. f_equal.
  - transitivity (tab 16 (fun i => first (nth i x0 0))).
    + apply tab_ext. intros i Hi. rewrite (G i Hi). reflexivity.
    + apply (list_eq_nth _ _ 0); [rewrite tab_length, map_length; lia|]. intros i Hi. rewrite tab_length in Hi. rewrite tab_nth by exact Hi.
      rewrite (nth_indep (map first x0) 0 (first 0)) by (rewrite ?map_length, ?tab_length; lia). symmetry. apply (map_nth (fun x => first x)).
  - rewrite mac_prods_tab. cbn [length]. unfold tab at 2. rewrite <- cons_seq, map_cons. cbn [tl]. rewrite !map_length.
    rewrite <- !seq_shift, !map_map. apply map_ext. intros t. apply tab_ext. intros i Hi. rewrite (G i Hi). cbn [nth]. apply nth_tl.
Qed.
Lemma umac_load_uni ext w x0 Bs h : (1 <= w <= 30)%nat -> torch_dim1 ext -> length Bs = 16%nat -> mac_bits (x0 :: map (map fst) h) ->
  (forall i, (i < 16)%nat -> ones (map (fun r => nth i r 0) (x0 :: map (map fst) h)) <= p2 w) ->
  outs (mac_lanes (umul_uni w)) (repeat umul_uni_init 16) (map2 (fun x B => (x, B, 1)) x0 Bs :: map (map (fun p => (fst p, snd p, 0))) h) =
  repeat 0 16 :: tl (mac_prods Unipolar (rng_seq ext KSobol w 1) Bs (x0 :: map (map fst) h)).
Proof.
  intros Hw He HB Hh Ho. destruct (Forall_inv Hh) as [L0 B0].
  replace (repeat 0 16) with (map (fun _ : Z => 0) x0) by (do 16 (destruct x0 as [|? x0]; [discriminate|]); destruct x0; [reflexivity|discriminate]).
  assert (Lh : Forall (fun r => length r = 16%nat) h).
  { apply Forall_inv_tail in Hh. rewrite Forall_map in Hh. eapply Forall_impl; [|exact Hh]. intros r [L _]. rewrite map_length in L. exact L. }
  apply load_cols; try assumption. intros i Hi.
  assert (E1 : map fst (map (fun r => nth i r (0, 0)) h) = map (fun r => nth i r 0) (map (map fst) h)).
  { rewrite !map_map. apply map_ext. intros r. symmetry. exact (map_nth fst r (0, 0) i). }
  apply umul_uni_load; try assumption; rewrite E1; [|exact (Ho i Hi)].
  change (nth i x0 0 :: map (fun r => nth i r 0) (map (map fst) h)) with (map (fun r => nth i r 0) (x0 :: map (map fst) h)).
  apply Forall_forall. intros y Hy. apply in_map_iff in Hy. destruct Hy as (r & <- & Hr'). unfold mac_bits in Hh. rewrite Forall_forall in Hh.
  destruct (Hh r Hr') as [L Hb]. apply (Forall_nth_lt bit _ i 0 Hb). lia.
Qed.
Lemma umac_load_bi ext w x0 Bs h : (1 <= w <= 30)%nat -> torch_dim1 ext -> length Bs = 16%nat -> mac_bits (x0 :: map (map fst) h) ->
  (forall i, (i < 16)%nat -> ones (map (fun r => nth i r 0) (x0 :: map (map fst) h)) <= p2 w /\ zeros (map (fun r => nth i r 0) (x0 :: map (map fst) h)) <= p2 w) ->
  outs (mac_lanes (umul_bi w)) (repeat umul_bi_init 16) (map2 (fun x B => (x, B, 1)) x0 Bs :: map (map (fun p => (fst p, snd p, 0))) h) =
  map (fun x => 1 - x) x0 :: tl (mac_prods Bipolar (rng_seq ext KSobol w 1) Bs (x0 :: map (map fst) h)).
Proof.
  intros Hw He HB Hh Ho. destruct (Forall_inv Hh) as [L0 B0].
  assert (Lh : Forall (fun r => length r = 16%nat) h).
  { apply Forall_inv_tail in Hh. rewrite Forall_map in Hh. eapply Forall_impl; [|exact Hh]. intros r [L _]. rewrite map_length in L. exact L. }
  apply load_cols; try assumption. intros i Hi.
  assert (E1 : map fst (map (fun r => nth i r (0, 0)) h) = map (fun r => nth i r 0) (map (map fst) h)).
  { rewrite !map_map. apply map_ext. intros r. symmetry. exact (map_nth fst r (0, 0) i). }
  apply umul_bi_load; try assumption; rewrite E1; [|exact (proj1 (Ho i Hi))|exact (proj2 (Ho i Hi))].
  change (nth i x0 0 :: map (fun r => nth i r 0) (map (map fst) h)) with (map (fun r => nth i r 0) (x0 :: map (map fst) h)).
  apply Forall_forall. intros y Hy. apply in_map_iff in Hy. destruct Hy as (r & <- & Hr'). unfold mac_bits in Hh. rewrite Forall_forall in Hh.
  destruct (Hh r Hr') as [L Hb]. apply (Forall_nth_lt bit _ i 0 Hb). lia.
Qed.
