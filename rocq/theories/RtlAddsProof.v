(** Proofs about the units of RtlAddsModel.v. *)
Require Import Verif.BaseLemmas Verif.RtlMacModel Verif.RtlMacSpec Verif.RtlAddsModel Verif.RtlAddsSpec.
Require Import Verif.GenProof Verif.RtlProof Verif.RtlRngProof Verif.RtlCountProof Verif.RtlMulProof Verif.RtlMacProof Verif.RtlTmacProof.
Open Scope Z_scope.

(** ** Generators *)
Lemma low3_range t : 0 <= low3 t < 8.
Proof. unfold low3. apply Z.mod_pos_bound. lia. Qed.
Lemma low3_tab : forallb (fun t => nth t sobol512 0 mod 8 =? nth (t / 32 * 32) sobol512 0 mod 8) (seq 0 512) = true.
Proof. vm_compute. reflexivity. Qed.
Lemma low3_nth t : (t < 512)%nat -> low3 t = nth t sobol512 0 mod 8.
Proof. intros H. unfold low3. rewrite <- sobol512_eq, nth_tab by exact H. reflexivity. Qed.
Lemma low3_period q k : low3 (q * 512 + k) = low3 k.
Proof. unfold low3. rewrite run_period. reflexivity. Qed.
Lemma low3_block k j : (j < 32)%nat -> low3 (32 * k + j) = low3 (32 * k).
Proof.
  intros Hj. pose proof (Nat.div_mod k 16 ltac:(lia)) as D. pose proof (Nat.mod_upper_bound k 16 ltac:(lia)) as Hr.
  set (q := (k / 16)%nat) in *. set (r := (k mod 16)%nat) in *. clearbody q r. subst k.
  replace (32 * (16 * q + r) + j)%nat with (q * 512 + (32 * r + j))%nat by lia. replace (32 * (16 * q + r))%nat with (q * 512 + 32 * r)%nat by lia.
  rewrite !low3_period.
  pose proof (proj1 (forallb_forall _ _) low3_tab (32 * r + j)%nat ltac:(apply in_seq; lia)) as T. cbv beta in T. apply Z.eqb_eq in T.
  rewrite !low3_nth by lia. rewrite T. do 2 f_equal. rewrite (Nat.mul_comm 32 r), Nat.div_add_l by lia. rewrite (Nat.div_small j) by lia. lia.
Qed.

(** ** apcADD *)
Lemma row_ex x : row8 x -> exists a b c d e f g k, x = [a; b; c; d; e; f; g; k] /\ bit a /\ bit b /\ bit c /\ bit d /\ bit e /\ bit f /\ bit g /\ bit k.
Proof.
  intros [L B]. do 8 (destruct x as [|? x]; [discriminate|]). destruct x; [|discriminate]. unfold bits in B.
  repeat match goal with H : Forall bit (_ :: _) |- _ => pose proof (Forall_inv H); apply Forall_inv_tail in H end.
  do 8 eexists. split; [reflexivity|]. tauto.
Qed.
Lemma apc_or_one a b x i j : nth i x 0 = a -> nth j x 0 = b -> bit a -> bit b -> apc_or x i j = has_one x i j.
Proof. unfold apc_or, has_one. intros -> -> [-> | ->] [-> | ->]; reflexivity. Qed.
Lemma has_one_range x i j : 0 <= has_one x i j <= 1.
Proof. unfold has_one. destruct (_ || _); cbn; lia. Qed.
Lemma apc_next_weight x : row8 x -> apc_next x = apc_weight x.
Proof.
  intros H. destruct (row_ex x H) as (a & b & c & d & e & f & g & k & E & Ha & Hb & Hc & Hd & He & Hf & Hg & Hk).
  unfold apc_next, apc_weight. rewrite !(fun i j p q => apc_or_one (nth i x 0) (nth j x 0) x i j eq_refl eq_refl p q) by (subst x; assumption).
  pose proof (has_one_range x 0 1). pose proof (has_one_range x 2 3). pose proof (has_one_range x 4 5). pose proof (has_one_range x 6 7).
  rewrite (trunc_id 2) by (change (p2 2) with 4; lia). rewrite trunc_id by (change (p2 3) with 8; lia). lia.
Qed.
Lemma apc_weight_range x : 0 <= apc_weight x <= 7.
Proof.
  unfold apc_weight. pose proof (has_one_range x 0 1). pose proof (has_one_range x 2 3). pose proof (has_one_range x 4 5). pose proof (has_one_range x 6 7). lia.
Qed.
Lemma apc_weight_count x : row8 x -> ones x - 1 <= apc_weight x <= ones x + 3 /\ (ones x = 0 -> apc_weight x = 0).
Proof.
  intros H. destruct (row_ex x H) as (a & b & c & d & e & f & g & k & -> & Ha & Hb & Hc & Hd & He & Hf & Hg & Hk). clear H.
  unfold apc_weight, has_one. cbn [nth].
  destruct Ha as [-> | ->], Hb as [-> | ->], Hc as [-> | ->], Hd as [-> | ->], He as [-> | ->], Hf as [-> | ->], Hg as [-> | ->], Hk as [-> | ->];
  cbn; lia.
Qed.
Lemma rows_nth h t : rows8b h -> (t < length h)%nat -> row8 (nth t h []).
Proof. intros H Ht. exact (proj1 (Forall_forall _ _) H _ (nth_In h [] Ht)). Qed.
Lemma apc_state h : rows8b h -> final apcadd_rng apcadd_rng_init h = (sob_st 8 (length h), match length h with O => 0 | S t => apc_weight (nth t h []) end).
Proof.
  induction h as [|x h IH] using rev_ind; intros Hr; [rewrite sob_st_0 by lia; reflexivity|]. apply Forall_app in Hr. destruct Hr as [Hr Hx].
  rewrite final_snoc, IH by exact Hr. unfold apcadd_rng. rewrite sobol_en by lia. unfold apcadd. cbn [fst].
  rewrite apc_next_weight by (exact (Forall_inv Hx)). rewrite app_length. cbn [length]. rewrite Nat.add_1_r.
  rewrite app_nth2, Nat.sub_diag by lia. reflexivity.
Qed.
Lemma apc_first h : nth 0 (outs apcadd_rng apcadd_rng_init h) 0 = 0.
Proof. destruct h as [|x h]; [reflexivity|]. rewrite outs_cons. reflexivity. Qed.
Lemma apc_nth h t : rows8b h -> (S t < length h)%nat ->
  nth (S t) (outs apcadd_rng apcadd_rng_init h) 0 = b2z (low3 (S t) <? apc_weight (nth t h [])).
Proof.
  intros Hr Ht. rewrite (outs_nth _ _ h (S t) [] 0 Ht). rewrite apc_state by (apply BaseLemmas.Forall_firstn; exact Hr).
  rewrite firstn_length_le by lia. unfold apcadd_rng. rewrite sobol_en by lia. unfold apcadd. cbn [snd].
  replace (nth t (firstn (S t) h) []) with (nth t h [])
    by (rewrite (firstn_S_nth h t []), app_nth2, firstn_length_le, Nat.sub_diag by (rewrite ?firstn_length_le; lia); reflexivity).
  unfold low3. rewrite free_run_at by lia. unfold trunc. change (p2 3) with 8. f_equal. rewrite Z.gtb_ltb. reflexivity.
Qed.
Lemma count_low (B : Z) : 0 <= B <= 8 -> countb (fun v => v mod 8 <? B) (zrange 256) = 32 * B.
Proof.
  intros H. assert (T : forallb (fun b => countb (fun v => v mod 8 <? Z.of_nat b) (zrange 256) =? 32 * Z.of_nat b) (seq 0 9) = true) by (vm_compute; reflexivity).
  pose proof (proj1 (forallb_forall _ _) T (Z.to_nat B) ltac:(apply in_seq; lia)) as E. cbv beta in E. rewrite Z2Nat.id in E by lia. apply Z.eqb_eq in E. exact E.
Qed.
Lemma apc_period h x p : rows8b h -> (1 <= p)%nat -> (p * 256 + 256 <= length h)%nat ->
  (forall t, (p * 256 - 1 <= t < p * 256 + 255)%nat -> nth t h [] = x) ->
  ones_from (p * 256) 256 (outs apcadd_rng apcadd_rng_init h) = 32 * apc_weight x.
Proof.
  intros Hr Hp L Hx. rewrite (period_count0 (fun v => v mod 8 <? apc_weight x)); [|intros i Hi|rewrite outs_length; exact L].
  - apply count_low. pose proof (apc_weight_range x). lia.
  - replace (p * 256 + i)%nat with (S (p * 256 + i - 1)) by lia. rewrite apc_nth by (try exact Hr; lia). rewrite Hx by lia. reflexivity.
Qed.
Lemma apc_block h x k j : rows8b h -> (j < 32)%nat -> (32 * k + j < length h)%nat -> (1 <= k)%nat ->
  (forall t, (32 * k - 1 <= t < 32 * k + 31)%nat -> nth t h [] = x) ->
  nth (32 * k + j) (outs apcadd_rng apcadd_rng_init h) 0 = b2z (low3 (32 * k) <? apc_weight x).
Proof.
  intros Hr Hj L Hk Hx. replace (32 * k + j)%nat with (S (32 * k + j - 1)) by lia. rewrite apc_nth by (try exact Hr; lia). rewrite Hx by lia.
  replace (S (32 * k + j - 1)) with (32 * k + j)%nat by lia. rewrite low3_block by exact Hj. reflexivity.
Qed.

(** ** muxADD_rng *)
Lemma muxr_state h : fst (final muxadd_rng muxadd_rng_init h) = sob_st 8 (length h).
Proof.
  induction h as [|x h IH] using rev_ind; [rewrite sob_st_0 by lia; reflexivity|].
  rewrite final_snoc. destruct (final muxadd_rng muxadd_rng_init h) as [r o]. cbn [fst] in IH. subst r. unfold muxadd_rng.
  rewrite sobol_en by lia. cbn [fst muxadd]. rewrite app_length, Nat.add_1_r. reflexivity.
Qed.
Lemma muxr_nth h t : (S t < length h)%nat -> nth (S t) (outs muxadd_rng muxadd_rng_init h) 0 = nth (Z.to_nat (low3 t)) (nth t h []) 0.
Proof.
  intros Ht. rewrite (outs_nth _ _ h (S t) [] 0 Ht). rewrite (firstn_S_nth h t []) by lia. rewrite final_snoc.
  pose proof (muxr_state (firstn t h)) as H. rewrite firstn_length_le in H by lia.
  destruct (final muxadd_rng muxadd_rng_init (firstn t h)) as [r o]. cbn [fst] in H. subst r. unfold muxadd_rng at 2. rewrite sobol_en by lia.
  cbn [fst muxadd]. unfold muxadd_rng. rewrite sobol_en by lia. cbn [snd muxadd]. unfold low3. rewrite free_run_at by lia. reflexivity.
Qed.
Lemma muxr_first h : nth 0 (outs muxadd_rng muxadd_rng_init h) 0 = 0.
Proof. destruct h as [|x h]; [reflexivity|]. rewrite outs_cons. reflexivity. Qed.
Lemma nth_bit x i : bits x -> bit (nth i x 0).
Proof. intros H. destruct (nth_in_or_default i x 0) as [I | ->]; [exact (proj1 (Forall_forall _ _) H _ I)|left; reflexivity]. Qed.
Lemma bit_b2z v : bit v -> v = b2z (v =? 1).
Proof. intros [-> | ->]; reflexivity. Qed.
Lemma muxr_block h k : rows8b h -> (32 * k + 32 < length h)%nat ->
  ones_from (32 * k + 1) 32 (outs muxadd_rng muxadd_rng_init h) = lane_ones h (Z.to_nat (low3 (32 * k))) (32 * k) 32.
Proof.
  intros Hr L. rewrite ones_from_count by (rewrite outs_length; lia). unfold lane_ones. rewrite (countb_seq_offset _ (32 * k)).
  apply countb_ext. intros i Hi. apply in_seq in Hi. replace (32 * k + 1 + i)%nat with (S (32 * k + i)) by lia.
  rewrite muxr_nth by lia. rewrite low3_block by lia. apply Z.eqb_sym.
Qed.

Lemma count_eq8 i : (i < 8)%nat -> countb (fun v => v mod 8 =? Z.of_nat i) (zrange 256) = 32.
Proof. intros H. do 8 (destruct i as [|i]; [vm_compute; reflexivity|]). lia. Qed.
Lemma ones_eight x : row8 x -> ones x = zsum (map (fun i => b2z (nth i x 0 =? 1)) (seq 0 8)).
Proof.
  intros H. destruct (row_ex x H) as (a & b & c & d & e & f & g & k & -> & _).
  cbn [seq map nth]. rewrite !ones_cons. change (ones []) with 0. cbn [zsum]. rewrite !(Z.eqb_sym 1). unfold b2z. lia.
Qed.
Lemma count_pick (x : list Z) (l : list Z) : Forall (fun v => 0 <= v < 8) l ->
  countb (fun v => nth (Z.to_nat v) x 0 =? 1) l = zsum (map (fun i => b2z (nth i x 0 =? 1) * countb (fun v => v =? Z.of_nat i) l) (seq 0 8)).
Proof.
  induction l as [|v l IH]; intros H; [cbn; lia|]. pose proof (Forall_inv H) as Hv. cbn [countb]. rewrite IH by (exact (Forall_inv_tail H)). cbn [seq map zsum].
  assert (C : v = 0 \/ v = 1 \/ v = 2 \/ v = 3 \/ v = 4 \/ v = 5 \/ v = 6 \/ v = 7) by (cbv beta in Hv; lia).
  repeat destruct C as [-> | C]; try subst v; cbn [Z.to_nat Pos.to_nat Pos.iter_op Nat.add Z.eqb Pos.eqb Z.of_nat Pos.of_succ_nat Pos.succ];
  destruct (nth _ x 0 =? 1) eqn:E; cbn [b2z]; lia.
Qed.

Lemma muxr_period h x p : row8 x -> (p * 256 + 256 < length h)%nat ->
  (forall t, (p * 256 <= t < p * 256 + 256)%nat -> nth t h [] = x) ->
  ones_from (S (p * 256)) 256 (outs muxadd_rng muxadd_rng_init h) = 32 * ones x.
Proof.
  intros Hr L Hx. rewrite (period_count (fun v => nth (Z.to_nat (v mod 8)) x 0 =? 1)); [|intros i Hi|rewrite outs_length; exact L].
  - rewrite <- (countb_map (fun v => nth (Z.to_nat v) x 0 =? 1) (fun v => v mod 8)), count_pick.
    + rewrite (ones_eight x Hr). rewrite (map_ext_in _ (fun i => 32 * b2z (nth i x 0 =? 1))).
      * cbn [seq map zsum]. lia.
      * intros i Hi. apply in_seq in Hi. rewrite (countb_map (fun v => v =? Z.of_nat i)), count_eq8 by lia. lia.
    + apply Forall_forall. intros v Hv. apply in_map_iff in Hv. destruct Hv as (u & <- & _). apply Z.mod_pos_bound. lia.
  - rewrite muxr_nth by lia. rewrite Hx by lia. apply bit_b2z. apply nth_bit. apply Hr.
Qed.

(** ** dADD *)
Lemma dadd_state h : fst (final dadd dadd_init h) = (Z.of_nat (length h mod 8), sob_st 3 ((length h + 6) / 8)).
Proof.
  induction h as [|x h IH] using rev_ind; [cbn [length]; change ((0 + 6) / 8)%nat with 0%nat; rewrite sob_st_0 by lia; reflexivity|].
  rewrite final_snoc. destruct (final dadd dadd_init h) as [[cnt r] o]. cbn [fst] in IH. apply pair_equal_spec in IH. destruct IH as [-> ->]. rewrite app_length. cbn [length].
  set (n := length h). clearbody n. pose proof (Nat.div_mod n 8 ltac:(lia)) as D. pose proof (Nat.mod_upper_bound n 8 ltac:(lia)) as Hr.
  set (q := (n / 8)%nat) in *. set (r := (n mod 8)%nat) in *. clearbody q r.
  assert (E1 : Z.of_nat ((n + 1) mod 8) = trunc 3 (Z.of_nat r + 1)).
  { unfold trunc. change (p2 3) with 8. subst n. replace (8 * q + r + 1)%nat with (r + 1 + q * 8)%nat by lia. rewrite Nat.mod_add by lia.
    rewrite Nat2Z.inj_mod, Nat2Z.inj_add. reflexivity. }
  rewrite E1. unfold dadd. destruct (Z.eqb_spec (Z.of_nat r) 1) as [E|E]; cbn [b2z].
  - rewrite sobol_en by lia. cbn [fst muxadd]. do 2 f_equal. assert (r = 1%nat) by lia. subst r n.
    replace (8 * q + 1 + 6)%nat with (7 + q * 8)%nat by lia. replace (8 * q + 1 + 1 + 6)%nat with (0 + (q + 1) * 8)%nat by lia.
    rewrite !Nat.div_add by lia. change (7 / 8)%nat with 0%nat. change (0 / 8)%nat with 0%nat. lia.
  - rewrite sobol_dis by lia. cbn [fst muxadd]. do 2 f_equal. subst n.
    replace (8 * q + r + 6)%nat with (r + 6 + q * 8)%nat by lia. replace (8 * q + r + 1 + 6)%nat with (r + 7 + q * 8)%nat by lia.
    rewrite !Nat.div_add by lia. f_equal. do 8 (destruct r as [|r]; [reflexivity || (exfalso; lia)|]). lia.
Qed.
Lemma dadd_nth h t : (S t < length h)%nat -> nth (S t) (outs dadd dadd_init h) 0 = nth (Z.to_nat (free_run 3 ((t + 6) / 8))) (nth t h []) 0.
Proof.
  intros Ht. rewrite (outs_nth _ _ h (S t) [] 0 Ht). rewrite (firstn_S_nth h t []) by lia. rewrite final_snoc.
  pose proof (dadd_state (firstn t h)) as H. rewrite firstn_length_le in H by lia.
  destruct (final dadd dadd_init (firstn t h)) as [[cnt r] o]. cbn [fst] in H. apply pair_equal_spec in H. destruct H as [-> ->]. set (k := ((t + 6) / 8)%nat).
  rewrite free_run_at by lia. unfold dadd at 2. destruct (Z.of_nat (t mod 8) =? 1); cbn [b2z]; [rewrite sobol_en by lia|rewrite sobol_dis by lia];
  cbn [fst muxadd]; unfold dadd; destruct (sobol_rtl _ _ _); reflexivity.
Qed.
Lemma dadd_first h : nth 0 (outs dadd dadd_init h) 0 = 0.
Proof. destruct h as [|x h]; [reflexivity|]. rewrite outs_cons. reflexivity. Qed.
Lemma zsum_permz l l' : Permutation l l' -> zsum l = zsum l'.
Proof. induction 1; cbn [zsum]; lia. Qed.
Lemma sum8_split (f : nat -> bool) k n : countb f (seq k (n * 8)) = zsum (map (fun j => countb f (seq (k + 8 * j) 8)) (seq 0 n)).
Proof.
  induction n as [|n IH]; [reflexivity|]. replace (S n * 8)%nat with (n * 8 + 8)%nat by lia. rewrite seq_app, countb_app, IH.
  rewrite (seq_S n 0), map_app, zsum_app. cbn [map zsum]. replace (0 + n)%nat with n by lia. replace (n * 8)%nat with (8 * n)%nat by lia. lia.
Qed.
Lemma repeats_at h k i : repeats8 h k 64 -> forall j u, (j < 8)%nat -> (u < 8)%nat -> nth i (nth (k + 8 * j + u) h []) 0 = nth i (nth (k + u) h []) 0.
Proof.
  intros H. induction j as [|j IH]; intros u Hj Hu; [do 3 f_equal; lia|].
  replace (k + 8 * S j + u)%nat with (k + 8 * j + u + 8)%nat by lia. rewrite H by lia. apply IH; lia.
Qed.
Lemma dadd_period h p : repeats8 h (64 * p + 58) 64 -> (64 * p + 58 + 64 < length h)%nat ->
  ones_from (64 * p + 59) 64 (outs dadd dadd_init h) = zsum (map (fun i => lane_ones h i (64 * p + 58) 8) (seq 0 8)).
Proof.
  intros Hr L. set (k := (64 * p + 58)%nat) in *.
  assert (Ek : forall j u, (u < 8)%nat -> ((k + 8 * j + u + 6) / 8 = (p + 1) * 2 ^ 3 + j)%nat).
  { intros j u Hu. unfold k. replace (64 * p + 58 + 8 * j + u + 6)%nat with (u + ((p + 1) * 2 ^ 3 + j) * 8)%nat by (cbn [Nat.pow Nat.mul]; lia).
    rewrite Nat.div_add, Nat.div_small by lia. lia. }
  rewrite ones_from_count by (rewrite outs_length; unfold k in L; lia).
  rewrite (countb_ext _ (fun i => nth (Z.to_nat (free_run 3 ((k + i + 6) / 8))) (nth (k + i) h []) 0 =? 1)).
  2:{ intros i Hi. apply in_seq in Hi. replace (64 * p + 59 + i)%nat with (S (k + i)) by (unfold k; lia). rewrite dadd_nth by (unfold k in *; lia).
      apply Z.eqb_sym. }
  rewrite <- (countb_seq_offset (fun u => nth (Z.to_nat (free_run 3 ((u + 6) / 8))) (nth u h []) 0 =? 1) k 64), (sum8_split _ k 8 : countb _ (seq k 64) = _).
  rewrite (map_ext_in _ (fun j => lane_ones h (Z.to_nat (sob_at 3 ((p + 1) * 2 ^ 3 + j))) k 8)).
  - rewrite <- (map_map (fun j => sob_at 3 ((p + 1) * 2 ^ 3 + j)) (fun v => lane_ones h (Z.to_nat v) k 8)).
    exact (zsum_permz _ _ (Permutation_map (fun v => lane_ones h (Z.to_nat v) k 8) (sob_at_period 3 (p + 1) ltac:(lia)))).
  - intros j Hj. apply in_seq in Hj. unfold lane_ones. rewrite (countb_seq_offset _ (k + 8 * j)), (countb_seq_offset _ k). apply countb_ext. intros u Hu. apply in_seq in Hu.
    rewrite Ek by lia. rewrite free_run_at by lia. f_equal. apply repeats_at; [exact Hr|lia|lia].
Qed.

(** ** orADD *)
Lemma oradd8_nth h t : (S t < length h)%nat -> nth (S t) (outs oradd8 0 h) 0 = b2z (existsb (Z.eqb 1) (nth t h [])).
Proof. exact (or_nth h 0 t). Qed.
Lemma or_bounds h k n : rows8b h -> (k + n < length h)%nat ->
  (forall i, lane_ones h i k n <= ones_from (S k) n (outs oradd8 0 h)) /\
  ones_from (S k) n (outs oradd8 0 h) <= zsum (map (fun i => lane_ones h i k n) (seq 0 8)).
Proof.
  intros Hr L. rewrite ones_from_count by (rewrite outs_length; lia).
  rewrite (countb_ext _ (fun i => existsb (Z.eqb 1) (nth (k + i) h []))).
  2:{ intros i Hi. apply in_seq in Hi. cbn [Nat.add]. rewrite oradd8_nth by lia. destruct (existsb _ _); reflexivity. }
  rewrite <- (countb_seq_offset (fun u => existsb (Z.eqb 1) (nth u h []))). split.
  - intros i. unfold lane_ones. apply countb_mono. intros u _ E. apply existsb_exists. exists (nth i (nth u h []) 0). apply Z.eqb_eq in E.
    split; [|rewrite E; reflexivity]. destruct (nth_in_or_default i (nth u h []) 0) as [I|I]; [exact I|]. rewrite I in E. discriminate.
  - assert (G : forall l, (forall u, In u l -> (u < length h)%nat) -> countb (fun u => existsb (Z.eqb 1) (nth u h [])) l <=
      zsum (map (fun i => countb (fun u => nth i (nth u h []) 0 =? 1) l) (seq 0 8))).
    { induction l as [|u l IH]; intros Hl; [cbn; lia|]. specialize (IH (fun v Hv => Hl v (or_intror Hv))). cbn [countb].
      rewrite zsum_map_add. pose proof (rows_nth h u Hr (Hl u (or_introl eq_refl))) as Hx.
      assert (E : (if existsb (Z.eqb 1) (nth u h []) then 1 else 0) <= zsum (map (fun i => if nth i (nth u h []) 0 =? 1 then 1 else 0) (seq 0 8))); [|lia].
      destruct (row_ex _ Hx) as (a & b & c & d & e & f & g & q & -> & _). cbn [existsb nth seq map zsum].
      rewrite !(Z.eqb_sym 1).
      destruct (a =? 1), (b =? 1), (c =? 1), (d =? 1), (e =? 1), (f =? 1), (g =? 1), (q =? 1); cbn [orb]; lia. }
    apply G. intros u Hu. apply in_seq in Hu. lia.
Qed.

(** ** Binary units *)
Lemma pipe_nth (f : Z -> Z -> Z) (step : Z * Z * Z -> Z * Z -> (Z * Z * Z) * Z) h t :
  (forall a b c i, step (a, b, c) i = ((fst i, snd i, f a b), c)) -> (S (S t) < length h)%nat ->
  nth (S (S t)) (outs step bin_init h) 0 = f (fst (nth t h (0, 0))) (snd (nth t h (0, 0))).
Proof.
  intros E Ht. rewrite (outs_nth _ _ h (S (S t)) (0, 0) 0 Ht). rewrite (firstn_S_nth h (S t) (0, 0)) by lia. rewrite (firstn_S_nth h t (0, 0)) by lia.
  rewrite !final_snoc. destruct (final step bin_init (firstn t h)) as [[a b] c]. repeat (rewrite E; cbn [fst snd]). reflexivity.
Qed.
Lemma byte_mul a b : byte a -> byte b -> 0 <= a * b <= 65025.
Proof. unfold byte. nia. Qed.
Lemma badd_nth h t : (S (S t) < length h)%nat -> byte (fst (nth t h (0, 0))) -> byte (snd (nth t h (0, 0))) ->
  nth (S (S t)) (outs badd bin_init h) 0 = fst (nth t h (0, 0)) + snd (nth t h (0, 0)).
Proof.
  intros Ht Ha Hb. rewrite (pipe_nth (fun a b => trunc 9 (a + b))) by (try exact Ht; reflexivity). apply trunc_id. unfold byte in *. change (p2 9) with 512. lia.
Qed.
Lemma bmul_nth h t : (S (S t) < length h)%nat -> byte (fst (nth t h (0, 0))) -> byte (snd (nth t h (0, 0))) ->
  nth (S (S t)) (outs bmul bin_init h) 0 = fst (nth t h (0, 0)) * snd (nth t h (0, 0)).
Proof.
  intros Ht Ha Hb. rewrite (pipe_nth (fun a b => trunc 16 (a * b))) by (try exact Ht; reflexivity). apply trunc_id. pose proof (byte_mul _ _ Ha Hb).
  change (p2 16) with 65536. lia.
Qed.
Lemma mac_acc s ps : final mac s (map (fun p => (fst p, snd p, 0, 1)) ps) mod 2 ^ 20 = (s + zsum (map (fun p => fst p * snd p) ps)) mod 2 ^ 20.
Proof.
  revert s. induction ps as [|[a b] ps IH]; intros s; [cbn [map zsum]; rewrite Z.add_0_r; reflexivity|]. cbn [map]. rewrite final_cons. cbn [fst snd].
  rewrite IH. cbn [mac fst Z.eqb Pos.eqb zsum]. unfold trunc. change (p2 20) with (2 ^ 20). rewrite Zplus_mod_idemp_l. f_equal. lia.
Qed.
Lemma mac_run pre a b c ps : Forall (fun p => byte (fst p) /\ byte (snd p)) ((a, b) :: ps) -> 0 <= c ->
  let s := c + a * b + zsum (map (fun p => fst p * snd p) ps) in
  let oC := final mac 0 (pre ++ (a, b, c, 0) :: map (fun p => (fst p, snd p, 0, 1)) ps) in
  oC = s mod 2 ^ 20 /\ (c = 0 -> (length ps <= 15)%nat -> oC = s).
Proof.
  intros H Hc s oC. assert (E : oC = s mod 2 ^ 20).
  { unfold oC. rewrite final_app. cbn [map]. rewrite final_cons.
    assert (R : forall v qs, 0 <= v < 2 ^ 20 -> 0 <= final mac v (map (fun p => (fst p, snd p, 0, 1)) qs) < 2 ^ 20).
    { intros v qs. revert v. induction qs as [|q qs IH]; intros v Hv; [exact Hv|]. cbn [map]. rewrite final_cons. apply IH. cbn [mac fst]. apply Z.mod_pos_bound. reflexivity. }
    cbn [mac fst Z.eqb]. set (v := trunc 20 (a * b + c)).
    assert (Hv : 0 <= v < 2 ^ 20) by (apply Z.mod_pos_bound; reflexivity).
    rewrite <- (Z.mod_small _ _ (R v ps Hv)), mac_acc. unfold v, trunc. change (p2 20) with (2 ^ 20). rewrite Zplus_mod_idemp_l. f_equal. unfold s. lia. }
  split; [exact E|]. intros Hc0 L. rewrite E. apply Z.mod_small. unfold s. clear E oC s.
  pose proof (Forall_inv H) as [Ha Hb]. apply Forall_inv_tail in H. cbn [fst snd] in *. pose proof (byte_mul a b Ha Hb).
  assert (G : 0 <= zsum (map (fun p => fst p * snd p) ps) <= 65025 * Z.of_nat (length ps)).
  { clear - H. induction ps as [|[x y] ps IH]; [cbn; lia|]. pose proof (Forall_inv H) as [Hx Hy]. apply Forall_inv_tail in H. specialize (IH H).
    cbn [fst snd] in *. pose proof (byte_mul x y Hx Hy). cbn [map zsum fst snd length]. lia. }
  change (2 ^ 20) with 1048576. lia.
Qed.
Lemma buf_state h a : final data_buf data_buf_init h a = last_write a h.
Proof.
  induction h as [|x h IH] using rev_ind; [reflexivity|]. rewrite final_snoc. unfold last_write in *. rewrite fold_left_app. cbn [fold_left].
  destruct x as [[[ra we] wa] d]. cbn [data_buf fst]. rewrite IH. reflexivity.
Qed.
Lemma buf_nth h t : (t < length h)%nat ->
  nth t (outs data_buf data_buf_init h) 0 = last_write (fst (fst (fst (nth t h (0, 0, 0, 0))))) (firstn t h).
Proof.
  intros Ht. rewrite (outs_nth _ _ h t (0, 0, 0, 0) 0 Ht). destruct (nth t h (0, 0, 0, 0)) as [[[ra we] wa] d]. cbn [data_buf snd fst]. apply buf_state.
Qed.

(** ** grayCode *)
Lemma gray_state w n : final (gray_code w) 0 (repeat tt n) = Z.of_nat (n mod 2 ^ w).
Proof.
  pose proof (Nat.pow_nonzero 2 w ltac:(lia)) as Hn.
  induction n as [|n IH]; [rewrite Nat.mod_0_l by exact Hn; reflexivity|].
  replace (repeat tt (S n)) with (repeat tt n ++ [tt]) by (clear; induction n as [|n IH]; [reflexivity|cbn [repeat app]; rewrite IH; reflexivity]).
  rewrite final_snoc, IH. cbn [gray_code fst]. unfold trunc. rewrite <- p2_nat. change 1 with (Z.of_nat 1). rewrite <- Nat2Z.inj_add, <- Nat2Z.inj_mod. f_equal.
  rewrite Nat.add_mod_idemp_l, Nat.add_1_r by exact Hn. reflexivity.
Qed.
Lemma gray_nth w n t : (t < n)%nat -> nth t (outs (gray_code w) 0 (repeat tt n)) 0 = gray_at (t mod 2 ^ w).
Proof.
  intros Ht. rewrite (outs_nth _ _ (repeat tt n) t tt 0) by (rewrite repeat_length; exact Ht). rewrite firstn_repeat' by lia. rewrite gray_state.
  reflexivity.
Qed.
Definition one_bit (w : nat) (v : Z) : bool := existsb (fun j => v =? 2 ^ Z.of_nat j) (seq 0 w).
Lemma gray_step w n t : w = 4%nat \/ w = 8%nat -> (S t < n)%nat -> let os := outs (gray_code w) 0 (repeat tt n) in
  exists j, (j < w)%nat /\ Z.lxor (nth t os 0) (nth (S t) os 0) = 2 ^ Z.of_nat j.
Proof.
  intros Hw Ht os. unfold os. rewrite !gray_nth by lia. pose proof (Nat.pow_nonzero 2 w ltac:(lia)) as Hn.
  replace (S t mod 2 ^ w)%nat with (S (t mod 2 ^ w) mod 2 ^ w)%nat 
    by (rewrite <- (Nat.add_1_r t), <- (Nat.add_1_r (t mod 2 ^ w)); apply Nat.add_mod_idemp_l; exact Hn).
  pose proof (Nat.mod_upper_bound t _ Hn) as Hr. set (r := (t mod 2 ^ w)%nat) in *. clearbody r.
  assert (T : forallb (fun r => one_bit w (Z.lxor (gray_at r) (gray_at (S r mod 2 ^ w)))) (seq 0 (2 ^ w)) = true)
    by (destruct Hw as [-> | ->]; vm_compute; reflexivity).
  pose proof (proj1 (forallb_forall _ _) T r ltac:(apply in_seq; lia)) as E. cbv beta in E. apply existsb_exists in E. destruct E as (j & Hj & E).
  apply in_seq in Hj. apply Z.eqb_eq in E. exists j. split; [lia|exact E].
Qed.
Lemma gray_count w n p v : w = 4%nat \/ w = 8%nat -> 0 <= v < 2 ^ Z.of_nat w -> (p * 2 ^ w + 2 ^ w <= n)%nat ->
  countb (fun i => nth (p * 2 ^ w + i) (outs (gray_code w) 0 (repeat tt n)) 0 =? v) (seq 0 (2 ^ w)) = 1.
Proof.
  intros Hw Hv L. pose proof (Nat.pow_nonzero 2 w ltac:(lia)) as Hn.
  rewrite (countb_ext _ (fun i => gray_at i =? v)).
  - assert (T : forallb (fun v => countb (fun i => gray_at i =? Z.of_nat v) (seq 0 (2 ^ w)) =? 1) (seq 0 (2 ^ w)) = true)
      by (destruct Hw as [-> | ->]; vm_compute; reflexivity).
    change (2 ^ Z.of_nat w) with (p2 w) in Hv. rewrite <- p2_nat in Hv.
    pose proof (proj1 (forallb_forall _ _) T (Z.to_nat v) ltac:(apply in_seq; lia)) as E. cbv beta in E. rewrite Z2Nat.id in E by lia. apply Z.eqb_eq, E.
  - intros i Hi. apply in_seq in Hi. rewrite gray_nth by lia. do 2 f_equal. rewrite Nat.add_comm, Nat.mod_add, Nat.mod_small by lia. reflexivity.
Qed.

(** ** LSZ2 *)
Lemma lsz2_spec x : 0 <= x < 256 -> lsz2 x = Z.of_nat (lowest_zero x + 1) mod 8.
Proof.
  intros H. assert (T : forallb (fun v => lsz2 (Z.of_nat v) =? Z.of_nat (lowest_zero (Z.of_nat v) + 1) mod 8) (seq 0 256) = true) by (vm_compute; reflexivity).
  pose proof (proj1 (forallb_forall _ _) T (Z.to_nat x) ltac:(apply in_seq; lia)) as E. cbv beta in E. rewrite Z2Nat.id in E by lia. apply Z.eqb_eq, E.
Qed.

(** ** exp *)
Lemma exp_nth h t : Forall quad h -> (S (S (S t)) < length h)%nat -> let at_ k := nth k h (0, 0, 0, 0) in
  nth (S (S (S t))) (outs exp_rtl exp_init h) 0 =
  b2z (if rb2 (at_ (S (S (S t)))) then
         xin (at_ t) && (negb (rb0 (at_ (S t))) && xin (at_ (S t))) && (rb1 (at_ (S (S t))) || negb (rb0 (at_ (S (S t)))) && xin (at_ (S (S t))))
       else rb0 (at_ (S (S (S t)))) || xin (at_ (S (S (S t))))).
Proof.
  intros Hq Ht at_. assert (Q : forall k, (k < length h)%nat -> quad (at_ k)) by (intros k Hk; exact (proj1 (Forall_forall _ _) Hq _ (nth_In h _ Hk))).
  pose proof (Q t ltac:(lia)) as Q0. pose proof (Q (S t) ltac:(lia)) as Q1. pose proof (Q (S (S t)) ltac:(lia)) as Q2. pose proof (Q (S (S (S t))) Ht) as Q3.
  rewrite (outs_nth _ _ h (S (S (S t))) (0, 0, 0, 0) 0 Ht). rewrite (firstn_S_nth h (S (S t)) (0, 0, 0, 0)) by lia.
  rewrite (firstn_S_nth h (S t) (0, 0, 0, 0)) by lia. rewrite (firstn_S_nth h t (0, 0, 0, 0)) by lia. fold (at_ t) (at_ (S t)) (at_ (S (S t))) (at_ (S (S (S t)))).
  rewrite !final_snoc. destruct (final exp_rtl exp_init (firstn t h)) as [[d0 d1] d2].
  destruct (at_ t) as [[[a0 a1] a2] ax], (at_ (S t)) as [[[b0 b1] b2] bx], (at_ (S (S t))) as [[[c0 c1] c2] cx], (at_ (S (S (S t)))) as [[[e0 e1] e2] ex].
  unfold quad in Q0, Q1, Q2, Q3. destruct Q0 as (_ & _ & _ & A), Q1 as (B0 & _ & _ & B), Q2 as (C0 & C1 & _ & C), Q3 as (E0 & _ & E2 & E).
  unfold exp_rtl, rb0, rb1, rb2, xin. cbn [fst snd].
  destruct A as [-> | ->], B0 as [-> | ->], B as [-> | ->], C0 as [-> | ->], C1 as [-> | ->], C as [-> | ->], E0 as [-> | ->], E2 as [-> | ->], E as [-> | ->]; reflexivity.
Qed.
Lemma exp_zero h t : Forall quad h -> Forall (fun d => snd d = 0) h -> (t < length h)%nat ->
  nth t (outs exp_rtl exp_init h) 0 = b2z (negb (rb2 (nth t h (0, 0, 0, 0))) && rb0 (nth t h (0, 0, 0, 0))).
Proof.
  intros Hq H0 Ht. rewrite (outs_nth _ _ h t (0, 0, 0, 0) 0 Ht).
  assert (G : forall l, Forall (fun d : Z * Z * Z * Z => snd d = 0) l -> final exp_rtl exp_init l = (0, 0, 0)).
  { induction l as [|d l IH] using rev_ind; intros Hl; [reflexivity|]. apply Forall_app in Hl. destruct Hl as [Hl Hd]. apply Forall_inv in Hd. rewrite final_snoc, IH by exact Hl.
    destruct d as [[[r0 r1] r2] x]. cbn [snd] in Hd. subst x. reflexivity. }
  rewrite G by (apply BaseLemmas.Forall_firstn; exact H0).
  pose proof (proj1 (Forall_forall _ _) Hq _ (nth_In h (0, 0, 0, 0) Ht)) as Q. pose proof (proj1 (Forall_forall _ _) H0 _ (nth_In h (0, 0, 0, 0) Ht)) as X.
  destruct (nth t h (0, 0, 0, 0)) as [[[r0 r1] r2] x]. unfold quad in Q. cbn [snd] in X. subst x. destruct Q as (A & _ & B & _).
  unfold exp_rtl, rb0, rb2. cbn [fst snd]. destruct A as [-> | ->], B as [-> | ->]; reflexivity.
Qed.
