(** Proofs about the multiply-accumulate units gainMAC and dMAC. *)
Require Import Verif.BaseLemmas Verif.RtlMacModel Verif.RtlMacSpec.
Require Import Verif.GenProof Verif.RtlProof Verif.RtlRngProof Verif.RtlCountProof Verif.RtlMulProof.
Open Scope Z_scope.

Lemma wired_outs {S1 S2 I1 I2 O} (f : S1 -> I1 -> S1 * I2) (g : S2 -> I2 -> S2 * O) h : forall s1 s2,
  outs (wired f g) (s1, s2) h = outs g s2 (outs f s1 h).
Proof.
  induction h as [|x h IH]; intros s1 s2; [reflexivity|].
  assert (Step : wired f g (s1, s2) x = ((fst (f s1 x), fst (g s2 (snd (f s1 x)))), snd (g s2 (snd (f s1 x)))))
    by (unfold wired; cbn [fst snd]; destruct (f s1 x) as [a b]; cbn [fst snd]; destruct (g s2 b); reflexivity).
  rewrite outs_cons, Step. cbn [fst snd]. rewrite IH, (outs_cons f), (outs_cons g). reflexivity.
Qed.
Lemma map2_tab {A B C} (f : A -> B -> C) (g : nat -> A) (d : B) : forall n row k, length row = n ->
  map2 f (map g (seq k n)) row = map (fun i => f (g i) (nth (i - k) row d)) (seq k n).
Proof.
  induction n as [|n IH]; intros row k L; [reflexivity|]. destruct row as [|x row]; [discriminate|]. cbn [seq map map2].
  rewrite Nat.sub_diag. cbn [nth]. f_equal. rewrite IH by (cbn in L; lia). apply map_ext_in. intros i Hi. apply in_seq in Hi.
  replace (i - k)%nat with (S (i - S k)) by lia. reflexivity.
Qed.
Lemma lanes_tab {M I} (mul : M -> I -> M * Z) (g : nat -> M) (d : I) n row : length row = n ->
  mac_lanes mul (map g (seq 0 n)) row =
  (map (fun i => fst (mul (g i) (nth i row d))) (seq 0 n), map (fun i => snd (mul (g i) (nth i row d))) (seq 0 n)).
Proof.
  intros L. unfold mac_lanes. rewrite (map2_tab mul g d n row 0 L), !map_map.
  f_equal; apply map_ext; intros i; rewrite Nat.sub_0_r; reflexivity.
Qed.

Lemma held_snoc_a h x i : held_a (h ++ [x]) (length (h ++ [x])) i =
  mul_load (snd (port_a (nth i x (0, 0, 0, 0)))) (fst (port_a (nth i x (0, 0, 0, 0)))) (held_a h (length h) i).
Proof. unfold held_a, lane_in. rewrite !firstn_all, !map_app. cbn [map]. rewrite latched_snoc. reflexivity. Qed.
Lemma held_snoc_b h x i : held_b (h ++ [x]) (length (h ++ [x])) i =
  mul_load (snd (port_b (nth i x (0, 0, 0, 0)))) (fst (port_b (nth i x (0, 0, 0, 0)))) (held_b h (length h) i).
Proof. unfold held_b, lane_in. rewrite !firstn_all, !map_app. cbn [map]. rewrite latched_snoc. reflexivity. Qed.
Lemma held_prefix_a h t i : (t <= length h)%nat -> held_a (firstn t h) (length (firstn t h)) i = held_a h t i.
Proof. intros H. unfold held_a. rewrite firstn_all. reflexivity. Qed.
Lemma held_prefix_b h t i : (t <= length h)%nat -> held_b (firstn t h) (length (firstn t h)) i = held_b h t i.
Proof. intros H. unfold held_b. rewrite firstn_all. reflexivity. Qed.
Lemma rows_snoc h x : rows_ok (h ++ [x]) -> rows_ok h /\ length x = 16%nat.
Proof. intros H. apply Forall_app in H. destruct H as [H1 H2]. split; [exact H1|exact (Forall_inv H2)]. Qed.

(** ** gainMAC *)
Definition gain_regs (h : list (list mul_in)) (i : nat) : mul_regs :=
  ((held_a h (length h) i, held_b h (length h) i), (sob_st 8 (length h), sob_st 8 (length h))).
Lemma gain_state (mul : mul_regs -> mul_in -> mul_regs * Z) h : (forall st x, fst (mul st x) = fst (gmul_uni 8 st x)) -> rows_ok h ->
  final (mac_lanes mul) (repeat gmul_init 16) h = map (gain_regs h) (seq 0 16).
Proof.
  intros Hm. induction h as [|x h IH] using rev_ind; intros Hr.
  - cbn [final run fst]. unfold gmul_init. rewrite <- (sob_st_0 8) by lia. reflexivity.
  - apply rows_snoc in Hr. destruct Hr as [Hr Hx]. rewrite final_snoc, (IH Hr), (lanes_tab mul _ (0, 0, 0, 0) 16 x Hx). cbn [fst].
    apply map_ext. intros i. rewrite Hm. unfold gain_regs at 1. rewrite gmul_uni_at by lia. cbn [fst].
    unfold gain_regs. rewrite held_snoc_a, held_snoc_b. rewrite app_length. cbn [length]. rewrite Nat.add_1_r. 
    destruct (nth i x (0, 0, 0, 0)) as [[[ia ib] la] lb]. reflexivity.
Qed.
Lemma gain_col (mul : mul_regs -> mul_in -> mul_regs * Z) (bitof : Z -> Z -> Z -> Z) h t :
  (forall A B k x, mul ((A, B), (sob_st 8 k, sob_st 8 k)) x = (fst (gmul_uni 8 ((A, B), (sob_st 8 k, sob_st 8 k)) x), bitof (free_run 8 k) A B)) ->
  (forall st x, fst (mul st x) = fst (gmul_uni 8 st x)) -> rows_ok h -> (t < length h)%nat ->
  nth t (outs (mac_lanes mul) (repeat gmul_init 16) h) [] =
  map (fun i => bitof (free_run 8 t) (held_a h t i) (held_b h t i)) (seq 0 16).
Proof.
  intros Hb Hm Hr Ht. rewrite (outs_nth _ _ h t [] [] Ht).
  assert (Hr' : rows_ok (firstn t h)) by (apply BaseLemmas.Forall_firstn; exact Hr).
  rewrite (gain_state mul _ Hm Hr').
  assert (Lx : length (nth t h []) = 16%nat) by (apply (proj1 (Forall_forall _ _) Hr); apply nth_In; exact Ht).
  rewrite (lanes_tab mul _ (0, 0, 0, 0) 16 _ Lx). cbn [snd]. apply map_ext. intros i. unfold gain_regs.
  rewrite Hb. cbn [snd]. rewrite held_prefix_a, held_prefix_b by lia. rewrite firstn_length_le by lia. reflexivity.
Qed.
Lemma gmul_uni_bitof A B k x : gmul_uni 8 ((A, B), (sob_st 8 k, sob_st 8 k)) x =
  (fst (gmul_uni 8 ((A, B), (sob_st 8 k, sob_st 8 k)) x), (fun v A B => b2z (v <? Z.min A B)) (free_run 8 k) A B).
Proof. rewrite gmul_uni_at by lia. reflexivity. Qed.
Lemma gmul_bi_bitof A B k x : gmul_bi 8 ((A, B), (sob_st 8 k, sob_st 8 k)) x =
  (fst (gmul_uni 8 ((A, B), (sob_st 8 k, sob_st 8 k)) x), (fun v A B => b2z (Bool.eqb (v <? A) (v <? B))) (free_run 8 k) A B).
Proof. rewrite gmul_bi_at, gmul_uni_at by lia. reflexivity. Qed.
Lemma gmul_bi_fst st x : fst (gmul_bi 8 st x) = fst (gmul_uni 8 st x).
Proof.
  destruct st as [[a b] [ra rb]], x as [[[ia ib] la] lb]. unfold gmul_bi, gmul_uni.
  destruct (sobol_rtl 8 ra 1), (sobol_rtl 8 rb 1). reflexivity.
Qed.

Lemma mux_state cols : fst (final mux_sel mux_sel_init cols) = sob_st 4 (length cols).
Proof.
  induction cols as [|c cols IH] using rev_ind; [rewrite sob_st_0 by lia; reflexivity|].
  rewrite final_snoc. destruct (final mux_sel mux_sel_init cols) as [r o]. cbn [fst] in IH. subst r. unfold mux_sel.
  rewrite sobol_en by lia. cbn [fst]. rewrite app_length, Nat.add_1_r. reflexivity.
Qed.
Lemma mux_nth cols t : (S t < length cols)%nat ->
  nth (S t) (outs mux_sel mux_sel_init cols) 0 = nth (Z.to_nat (free_run 4 t)) (nth t cols []) 0.
Proof.
  intros Ht. rewrite (outs_nth _ _ cols (S t) [] 0 Ht).
  assert (E : firstn (S t) cols = firstn t cols ++ [nth t cols []]).
  { clear -Ht. revert t Ht. induction cols as [|c cols IH]; intros t Ht; [cbn in Ht; lia|]. destruct t as [|t]; [reflexivity|].
    cbn [firstn app nth]. f_equal. apply IH. cbn [length] in Ht. lia. }
  rewrite E, final_snoc. pose proof (mux_state (firstn t cols)) as H. rewrite firstn_length_le in H by lia.
  destruct (final mux_sel mux_sel_init (firstn t cols)) as [r o]. cbn [fst] in H. subst r. unfold mux_sel at 2. rewrite sobol_en by lia.
  cbn [fst]. unfold mux_sel. rewrite sobol_en by lia. cbn [snd]. rewrite free_run_at by lia. reflexivity.
Qed.
Lemma or_nth cols o t : (S t < length cols)%nat -> nth (S t) (outs oradd o cols) 0 = b2z (existsb (Z.eqb 1) (nth t cols [])).
Proof.
  revert o t. induction cols as [|c cols IH]; intros o t Ht; [cbn in Ht; lia|]. cbn [length] in Ht. rewrite outs_cons. cbn [nth].
  destruct t as [|t]; [|rewrite IH by lia; reflexivity].
  destruct cols as [|c' cols]; [cbn in Ht; lia|]. rewrite outs_cons. reflexivity.
Qed.
Lemma mux_first cols : nth 0 (outs mux_sel mux_sel_init cols) 0 = 0.
Proof. destruct cols as [|c cols]; [reflexivity|]. rewrite outs_cons. reflexivity. Qed.

(** Which lane is selected. *)
Lemma free_run_from w n k : (1 <= w)%nat -> rng_after w n = sobol_rtl_init -> free_run w (n + k) = free_run w k.
Proof.
  intros Hw E. assert (G : forall j, sob_st w (n + j) = sob_st w j).
  { intros j. induction j as [|j IH]; [rewrite Nat.add_0_r, <- rng_after_st, E, sob_st_0 by exact Hw; reflexivity|].
    rewrite Nat.add_succ_r. pose proof (sobol_en w (n + j) Hw) as H1. pose proof (sobol_en w j Hw) as H2. rewrite IH in H1. congruence. }
  rewrite !free_run_at by exact Hw. specialize (G k). unfold sob_st in G. congruence.
Qed.
Lemma sel_table : forallb (fun t => Z.eqb (free_run 4 t) (lane_of (free_run 8 t))) (seq 0 512) = true.
Proof. vm_compute. reflexivity. Qed.
Lemma sel_lane t : free_run 4 t = lane_of (free_run 8 t).
Proof.
  assert (G : forall q k, free_run 4 (q * 512 + k) = free_run 4 k /\ free_run 8 (q * 512 + k) = free_run 8 k).
  { assert (E4 : rng_after 4 512 = sobol_rtl_init) by (vm_compute; reflexivity).
    assert (E8 : rng_after 8 512 = sobol_rtl_init) by (vm_compute; reflexivity).
    induction q as [|q IH]; intros k; [split; reflexivity|]. replace (S q * 512 + k)%nat with (512 + (q * 512 + k))%nat by lia.
    rewrite (free_run_from 4 512) by (try exact E4; lia). rewrite (free_run_from 8 512) by (try exact E8; lia). apply IH. }
  rewrite (Nat.div_mod t 512) by lia. rewrite Nat.mul_comm. destruct (G (t / 512)%nat (t mod 512)%nat) as [-> ->].
  pose proof (Nat.mod_upper_bound t 512 ltac:(lia)) as Hm.
  apply Z.eqb_eq. apply (proj1 (forallb_forall _ _) sel_table). apply in_seq. lia.
Qed.
Lemma free_run_range w t : (1 <= w)%nat -> 0 <= free_run w t < p2 w.
Proof.
  intros Hw. rewrite free_run_at by exact Hw. pose proof (Nat.pow_nonzero 2 w ltac:(lia)) as Hn.
  pose proof (sob_at_period w (t / 2 ^ w) Hw) as P. 
  assert (I : In (sob_at w t) (zrange (2 ^ w))).
  { apply (Permutation_in _ P). apply in_map_iff. exists (t mod 2 ^ w)%nat. split.
    - f_equal. rewrite (Nat.div_mod t (2 ^ w)) at 3 by exact Hn. lia.
    - apply in_seq. pose proof (Nat.mod_upper_bound t (2 ^ w) Hn). lia. }
  unfold zrange in I. apply in_map_iff in I. destruct I as (k & <- & Hk). apply in_seq in Hk. rewrite <- p2_nat. lia.
Qed.
Lemma sel_nat t : (Z.to_nat (free_run 4 t) < 16)%nat.
Proof. pose proof (free_run_range 4 t ltac:(lia)) as H. change (p2 4) with 16 in H. lia. Qed.
Lemma nth_tab (f : nat -> Z) n i d : (i < n)%nat -> nth i (map f (seq 0 n)) d = f i.
Proof. intros H. rewrite (nth_indep _ _ (f 0%nat)) by (rewrite map_length, seq_length; exact H). rewrite map_nth, seq_nth by exact H. reflexivity. Qed.

Lemma gain_uni_nth h t : rows_ok h -> (S t < length h)%nat ->
  nth (S t) (outs gainmac_uni_scaled (gainmac_init mux_sel_init) h) 0 =
  b2z (bit_min (held_a h t) (held_b h t) (free_run 8 t) (Z.to_nat (lane_of (free_run 8 t)))).
Proof.
  intros Hr Ht. unfold gainmac_uni_scaled, gainmac_init. rewrite wired_outs, mux_nth by (rewrite outs_length; exact Ht).
  rewrite (gain_col _ _ h t gmul_uni_bitof) by (try exact Hr; try lia; reflexivity).
  rewrite nth_tab by apply sel_nat. rewrite <- sel_lane. reflexivity.
Qed.
Lemma gain_bi_nth h t : rows_ok h -> (S t < length h)%nat ->
  nth (S t) (outs gainmac_bi_scaled (gainmac_init mux_sel_init) h) 0 =
  b2z (bit_same (held_a h t) (held_b h t) (free_run 8 t) (Z.to_nat (lane_of (free_run 8 t)))).
Proof.
  intros Hr Ht. unfold gainmac_bi_scaled, gainmac_init. rewrite wired_outs, mux_nth by (rewrite outs_length; exact Ht).
  rewrite (gain_col _ _ h t gmul_bi_bitof) by (try exact Hr; try lia; exact gmul_bi_fst).
  rewrite nth_tab by apply sel_nat. rewrite <- sel_lane. reflexivity.
Qed.
Lemma exists_largest (m : nat -> Z) v l : 0 <= v ->
  existsb (Z.eqb 1) (map (fun i => b2z (v <? m i)) l) = (v <? fold_right Z.max 0 (map m l)).
Proof.
  intros Hv. induction l as [|i l IH]; cbn [map existsb fold_right].
  - destruct (Z.ltb_spec v 0); [lia|reflexivity].
  - rewrite IH. set (q := fold_right Z.max 0 (map m l)). clearbody q.
    destruct (Z.ltb_spec v (m i)), (Z.ltb_spec v q), (Z.ltb_spec v (Z.max (m i) q)); cbn; lia.
Qed.
Lemma gain_or_nth h t : rows_ok h -> (S t < length h)%nat ->
  nth (S t) (outs gainmac_uni_nonscaled (gainmac_init 0) h) 0 =
  b2z (free_run 8 t <? largest (fun i => Z.min (held_a h t i) (held_b h t i))).
Proof.
  intros Hr Ht. unfold gainmac_uni_nonscaled, gainmac_init. rewrite wired_outs, or_nth by (rewrite outs_length; exact Ht).
  rewrite (gain_col _ _ h t gmul_uni_bitof) by (try exact Hr; try lia; reflexivity).
  rewrite (exists_largest (fun i => Z.min (held_a h t i) (held_b h t i))) by (apply free_run_range; lia). reflexivity.
Qed.

(** Counting over a period. *)
Lemma ones_from_count os k n : (k + n <= length os)%nat -> ones_from k n os = countb (fun i => 1 =? nth (k + i) os 0) (seq 0 n).
Proof.
  unfold ones_from. revert k. induction n as [|n IH]; intros k H; [reflexivity|].
  rewrite seq_S. rewrite countb_app, <- IH by lia. cbn [Nat.add].
  assert (E : firstn (S n) (skipn k os) = firstn n (skipn k os) ++ [nth (k + n) os 0]).
  { rewrite <- nth_skipn'. assert (L : (n < length (skipn k os))%nat) by (rewrite skipn_length; lia). revert L. generalize (skipn k os).
    clear. induction n as [|n IH]; intros l L; destruct l as [|x l]; cbn [length] in L; try lia; [reflexivity|]. cbn [firstn app nth]. f_equal. apply IH. lia. }
  rewrite E, ones_app. reflexivity.
Qed.
Lemma period_count (f : Z -> bool) os p : (forall i, (i < 256)%nat -> nth (S (p * 256 + i)) os 0 = b2z (f (free_run 8 (p * 256 + i)))) ->
  (p * 256 + 256 < length os)%nat -> ones_from (S (p * 256)) 256 os = countb f (zrange 256).
Proof.
  intros H L. rewrite ones_from_count by lia.
  rewrite (countb_ext _ (fun i => f (sob_at 8 (p * 2 ^ 8 + i)))).
  - rewrite <- (countb_map f (fun i => sob_at 8 (p * 2 ^ 8 + i))). apply BaseLemmas.countb_perm.
    exact (sob_at_period 8 p ltac:(lia)).
  - intros i Hi. apply in_seq in Hi. change (2 ^ 8)%nat with 256%nat. rewrite <- free_run_at by lia. cbn [Nat.add].
    rewrite H by lia. destruct (f (free_run 8 (p * 256 + i))); reflexivity.
Qed.
Lemma lane_of_range v : 0 <= v < 256 -> 0 <= lane_of v < 16.
Proof.
  intros H. unfold lane_of. destruct (odd_ones v); [apply Z.mod_pos_bound; lia|].
  split; [apply Z.div_pos; lia|apply Z.div_lt_upper_bound; lia].
Qed.
Lemma gain_uni_count h A B p : rows_ok h -> (p * 256 + 256 < length h)%nat -> holds h A B (p * 256) 256 ->
  ones_from (S (p * 256)) 256 (outs gainmac_uni_scaled (gainmac_init mux_sel_init) h) =
  countb (fun v => bit_min A B v (Z.to_nat (lane_of v))) (zrange 256).
Proof.
  intros Hr L Hh. apply period_count; [|rewrite outs_length; exact L]. intros i Hi. rewrite gain_uni_nth by (try exact Hr; lia).
  rewrite <- sel_lane. unfold bit_min. destruct (Hh (p * 256 + i)%nat (Z.to_nat (free_run 4 (p * 256 + i))) ltac:(lia) (sel_nat _)) as [-> ->]. reflexivity.
Qed.
Lemma gain_bi_count h A B p : rows_ok h -> (p * 256 + 256 < length h)%nat -> holds h A B (p * 256) 256 ->
  ones_from (S (p * 256)) 256 (outs gainmac_bi_scaled (gainmac_init mux_sel_init) h) =
  countb (fun v => bit_same A B v (Z.to_nat (lane_of v))) (zrange 256).
Proof.
  intros Hr L Hh. apply period_count; [|rewrite outs_length; exact L]. intros i Hi. rewrite gain_bi_nth by (try exact Hr; lia).
  rewrite <- sel_lane. unfold bit_same. destruct (Hh (p * 256 + i)%nat (Z.to_nat (free_run 4 (p * 256 + i))) ltac:(lia) (sel_nat _)) as [-> ->]. reflexivity.
Qed.
Lemma largest_ext m m' : (forall i, (i < 16)%nat -> m i = m' i) -> largest m = largest m'.
Proof. intros H. unfold largest. f_equal. apply map_ext_in. intros i Hi. apply in_seq in Hi. apply H. lia. Qed.
Lemma largest_range m b : 0 <= b -> (forall i, (i < 16)%nat -> m i <= b) -> 0 <= largest m <= b.
Proof.
  intros Hb H. unfold largest. assert (G : forall l, (forall i, In i l -> m i <= b) -> 0 <= fold_right Z.max 0 (map m l) <= b).
  { induction l as [|i l IH]; intros Hl; cbn [map fold_right]; [lia|]. specialize (IH (fun j Hj => Hl j (or_intror Hj))). specialize (Hl i (or_introl eq_refl)). lia. }
  apply G. intros i Hi. apply in_seq in Hi. apply H. lia.
Qed.
Lemma gain_or_count h A B p : rows_ok h -> (p * 256 + 256 < length h)%nat -> holds h A B (p * 256) 256 ->
  (forall i, (i < 16)%nat -> 0 <= A i <= 256 /\ 0 <= B i <= 256) ->
  ones_from (S (p * 256)) 256 (outs gainmac_uni_nonscaled (gainmac_init 0) h) = largest (fun i => Z.min (A i) (B i)).
Proof.
  intros Hr L Hh HAB. rewrite (period_count (fun v => v <? largest (fun i => Z.min (A i) (B i)))); [|intros i Hi|rewrite outs_length; exact L].
  - rewrite countb_lt_zrange. pose proof (largest_range (fun i => Z.min (A i) (B i)) 256 ltac:(lia) ltac:(intros i Hi; specialize (HAB i Hi); lia)).
    unfold zclamp. lia.
  - rewrite gain_or_nth by (try exact Hr; lia). do 2 f_equal. apply largest_ext. intros j Hj.
    destruct (Hh (p * 256 + i)%nat j ltac:(lia) Hj) as [-> ->]. reflexivity.
Qed.

(** The error of the selection. *)
Lemma zsum_delta (k : Z) (b : bool) : forall n s, zsum (map (fun i => if (k =? Z.of_nat i) && b then 1 else 0) (seq s n)) =
  if (Z.of_nat s <=? k) && (k <? Z.of_nat (s + n)) && b then 1 else 0.
Proof.
  induction n as [|n IH]; intros s; cbn [seq map zsum].
  - destruct (Z.leb_spec (Z.of_nat s) k), (Z.ltb_spec k (Z.of_nat (s + 0))), b; cbn; lia.
  - rewrite IH. destruct (Z.eqb_spec k (Z.of_nat s)), (Z.leb_spec (Z.of_nat (S s)) k), (Z.ltb_spec k (Z.of_nat (S s + n))),
      (Z.leb_spec (Z.of_nat s) k), (Z.ltb_spec k (Z.of_nat (s + S n))), b; cbn [andb]; lia.
Qed.
Lemma zsum_map_add {A} (f g : A -> Z) l : zsum (map (fun i => f i + g i) l) = zsum (map f l) + zsum (map g l).
Proof. induction l as [|x l IH]; cbn [map zsum]; [reflexivity|]. rewrite IH. lia. Qed.
Lemma countb_lanes (f : Z -> bool) l : Forall (fun v => 0 <= lane_of v < 16) l ->
  countb f l = zsum (map (fun i => countb (fun v => (lane_of v =? Z.of_nat i) && f v) l) (seq 0 16)).
Proof.
  induction 1 as [|v l Hv Hl IH]; [reflexivity|]. cbn [countb]. rewrite zsum_map_add, <- IH, zsum_delta.
  destruct (Z.leb_spec (Z.of_nat 0) (lane_of v)), (Z.ltb_spec (lane_of v) (Z.of_nat (0 + 16))); try lia. destruct (f v); reflexivity.
Qed.
Lemma zrange_lanes : Forall (fun v => 0 <= lane_of v < 16) (zrange 256).
Proof. apply Forall_forall. intros v Hv. unfold zrange in Hv. apply in_map_iff in Hv. destruct Hv as (k & <- & Hk). apply in_seq in Hk. apply lane_of_range. lia. Qed.
Definition lane_tab : list Z := map lane_of (zrange 256).
Definition lane_cnt (i : nat) (m : nat) : Z := countb (Z.eqb (Z.of_nat i)) (firstn m lane_tab).
Lemma lane_cnt_ok i m : (m <= 256)%nat -> countb (fun v => (lane_of v =? Z.of_nat i) && (v <? Z.of_nat m)) (zrange 256) = lane_cnt i m.
Proof.
  intros H. unfold lane_cnt, lane_tab, zrange. rewrite !firstn_map, !countb_map.
  assert (E : firstn m (seq 0 256) = seq 0 m).
  { replace 256%nat with (m + (256 - m))%nat by lia. rewrite seq_app, firstn_app, seq_length, Nat.sub_diag, firstn_O, app_nil_r.
    apply firstn_all2. rewrite seq_length. lia. }
  rewrite E. replace 256%nat with (m + (256 - m))%nat by lia. rewrite seq_app, countb_app.
  rewrite (countb_false _ (seq (0 + m) (256 - m))).
  - rewrite Z.add_0_r. apply countb_ext. intros k Hk. apply in_seq in Hk. rewrite Z.eqb_sym.
    destruct (Z.ltb_spec (Z.of_nat k) (Z.of_nat m)); [apply Bool.andb_true_r|lia].
  - intros k Hk. apply in_seq in Hk. destruct (Z.ltb_spec (Z.of_nat k) (Z.of_nat m)); [lia|apply Bool.andb_false_r].
Qed.
Definition lane_hi (i : nat) : Z := 113 - 16 * (Z.of_nat i mod 8).
Definition lane_lo (i : nat) : Z := - (1 + 16 * (Z.of_nat i mod 8)).
Lemma lane_err_table : let tab := lane_tab in forallb (fun i => forallb (fun m =>
  let e := 16 * countb (Z.eqb (Z.of_nat i)) (firstn m tab) - Z.of_nat m in (lane_lo i <=? e) && (e <=? lane_hi i)) (seq 0 257)) (seq 0 16) = true.
Proof. vm_compute. reflexivity. Qed.
Lemma lane_err i m : (i < 16)%nat -> 0 <= m <= 256 ->
  lane_lo i <= 16 * countb (fun v => (lane_of v =? Z.of_nat i) && (v <? m)) (zrange 256) - m <= lane_hi i.
Proof.
  intros Hi Hm. rewrite <- (Z2Nat.id m) by lia. rewrite lane_cnt_ok by lia.
  pose proof (proj1 (forallb_forall _ _) lane_err_table i ltac:(apply in_seq; lia)) as H. cbv zeta beta in H.
  pose proof (proj1 (forallb_forall _ _) H (Z.to_nat m) ltac:(apply in_seq; lia)) as G. cbv zeta beta in G.
  apply Bool.andb_true_iff in G. destruct G as [G1 G2]. apply Z.leb_le in G1. apply Z.leb_le in G2. unfold lane_cnt. split; [exact G1|exact G2].
Qed.
Lemma select_error m : (forall i, (i < 16)%nat -> 0 <= m i <= 256) ->
  -912 <= 16 * countb (fun v => v <? m (Z.to_nat (lane_of v))) (zrange 256) - total m <= 912.
Proof.
  intros Hm. rewrite (countb_lanes _ _ zrange_lanes). unfold total.
  set (c := fun i => countb (fun v => (lane_of v =? Z.of_nat i) && (v <? m (Z.to_nat (lane_of v)))) (zrange 256)).
  assert (E : forall i, (i < 16)%nat -> lane_lo i <= 16 * c i - m i <= lane_hi i).
  { intros i Hi. unfold c. rewrite (countb_ext _ (fun v => (lane_of v =? Z.of_nat i) && (v <? m i))); [apply lane_err; [exact Hi|apply Hm; exact Hi]|].
    intros v _. destruct (Z.eqb_spec (lane_of v) (Z.of_nat i)) as [->|]; [rewrite Nat2Z.id; reflexivity|reflexivity]. }
  assert (G : forall l, (forall i, In i l -> (i < 16)%nat) ->
    zsum (map lane_lo l) <= 16 * zsum (map c l) - zsum (map m l) <= zsum (map lane_hi l)).
  { induction l as [|i l IH]; intros Hl; cbn [map zsum]; [lia|]. specialize (IH (fun j Hj => Hl j (or_intror Hj))).
    specialize (E i (Hl i (or_introl eq_refl))). lia. }
  specialize (G (seq 0 16) ltac:(intros i Hi; apply in_seq in Hi; lia)).
  change (zsum (map lane_lo (seq 0 16))) with (-912) in G. change (zsum (map lane_hi (seq 0 16))) with 912 in G. exact G.
Qed.
Lemma gain_uni_error h A B p : rows_ok h -> (p * 256 + 256 < length h)%nat -> holds h A B (p * 256) 256 ->
  (forall i, (i < 16)%nat -> 0 <= A i <= 256 /\ 0 <= B i <= 256) ->
  Z.abs (16 * ones_from (S (p * 256)) 256 (outs gainmac_uni_scaled (gainmac_init mux_sel_init) h) - total (fun i => Z.min (A i) (B i))) <= 912.
Proof.
  intros Hr L Hh HAB. rewrite (gain_uni_count h A B p Hr L Hh).
  pose proof (select_error (fun i => Z.min (A i) (B i)) ltac:(intros i Hi; specialize (HAB i Hi); lia)) as E. cbv beta in E. unfold bit_min. lia.
Qed.
Lemma gain_uni_equal h A B p m : rows_ok h -> (p * 256 + 256 < length h)%nat -> holds h A B (p * 256) 256 ->
  0 <= m <= 256 -> (forall i, (i < 16)%nat -> Z.min (A i) (B i) = m) ->
  ones_from (S (p * 256)) 256 (outs gainmac_uni_scaled (gainmac_init mux_sel_init) h) = m.
Proof.
  intros Hr L Hh Hm HAB. rewrite (gain_uni_count h A B p Hr L Hh).
  rewrite (countb_ext _ (fun v => v <? m)); [rewrite countb_lt_zrange; unfold zclamp; lia|].
  intros v Hv. unfold bit_min. rewrite HAB; [reflexivity|]. pose proof (proj1 (Forall_forall _ _) zrange_lanes v Hv). cbv beta in H. lia.
Qed.


(** Operands that are loaded at every clock. *)
Lemma held_const A B N t i : (i < 16)%nat -> (1 <= t <= N)%nat ->
  held_a (repeat (mac_row A B) N) t i = A i /\ held_b (repeat (mac_row A B) N) t i = B i.
Proof.
  intros Hi Ht. unfold held_a, held_b, lane_in.
  replace (firstn t (repeat (mac_row A B) N)) with (repeat (mac_row A B) t).
  2:{ replace N with (t + (N - t))%nat by lia. rewrite repeat_app, firstn_app, repeat_length, Nat.sub_diag, firstn_O, app_nil_r.
      symmetry. apply firstn_all2. rewrite repeat_length. lia. }
  destruct t as [|t]; [lia|]. replace (S t) with (t + 1)%nat by lia. rewrite repeat_app. cbn [repeat]. rewrite !map_app. cbn [map].
  unfold mac_row at 2 4. rewrite (nth_indep _ _ ((fun i => (A i, B i, 1, 1)) 0%nat)) by (rewrite map_length, seq_length; exact Hi).
  rewrite (map_nth (fun i => (A i, B i, 1, 1))), seq_nth by exact Hi. cbn [Nat.add port_a port_b].
  unfold latched. rewrite !fold_left_app. cbn. split; reflexivity.
Qed.
Lemma holds_const A B N k n : (1 <= k)%nat -> (k + n <= N + 1)%nat -> holds (repeat (mac_row A B) N) A B k n.
Proof. intros H1 H2 t i Ht Hi. apply held_const; lia. Qed.
Lemma rows_const A B N : rows_ok (repeat (mac_row A B) N).
Proof. apply Forall_forall. intros r Hr. apply repeat_spec in Hr. subst r. unfold mac_row. rewrite map_length. apply seq_length. Qed.
