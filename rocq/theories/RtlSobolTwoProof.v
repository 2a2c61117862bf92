(** Proofs about SobolRNGtwo. *)
Require Import Verif.BaseLemmas Verif.RtlSobolTwoSpec Verif.GenModel Verif.SobolProof.
Open Scope Z_scope.

(** ** The merged array *)
Lemma slice_hi x y k : (1 <= k <= 9)%nat -> 0 <= y < p2 k -> 0 <= x < p2 (9 - k) -> slice (x * p2 k + y) 8 k = x.
Proof.
  intros Hk Hy Hx. unfold slice. pose proof (p2_pos k). rewrite Z.div_add_l by lia. rewrite (Z.div_small y) by lia. rewrite Z.add_0_r.
  replace (S 8 - k)%nat with (9 - k)%nat by lia. apply Z.mod_small. lia.
Qed.
Lemma slice_lo x y k : 0 <= y < p2 (S k) -> slice (x * p2 (S k) + y) k 0 = y.
Proof.
  intros Hy. unfold slice. change (p2 0) with 1. rewrite Z.div_1_r. replace (S k - 0)%nat with (S k) by lia. pose proof (p2_pos (S k)).
  rewrite Z.add_comm, Z_mod_plus_full. apply Z.mod_small. lia.
Qed.
Theorem merged_vecs : forall a b i, vecs a -> vecs b -> (i < 8)%nat ->
  vec_reg0 (merged a b) i = vec_of a i /\ vec_reg1 (merged a b) i = vec_of b i.
Proof.
  intros a b i [La Ha] [Lb Hb] Hi. unfold vec_of.
  assert (M : forall j, (j < 8)%nat -> nth j (merged a b) 0 = nth j a 0 * p2 (8 - j) + nth (7 - j) b 0).
  { intros j Hj. unfold merged. set (f := fun k => _). rewrite (nth_indep _ 0 (f 0%nat)) by (rewrite map_length, seq_length; exact Hj). rewrite map_nth, seq_nth by exact Hj. reflexivity. }
  assert (S0 : forall j, (j < 8)%nat -> slice (nth j (merged a b) 0) 8 (8 - j) = nth j a 0).
  { intros j Hj. rewrite M by exact Hj. apply slice_hi; [lia| |].
    - replace (8 - j)%nat with (S (7 - j)) by lia. apply Hb. lia.
    - replace (9 - (8 - j))%nat with (S j) by lia. apply Ha. exact Hj. }
  assert (S1 : forall j, (j < 8)%nat -> slice (nth (7 - j) (merged a b) 0) j 0 = nth j b 0).
  { intros j Hj. rewrite M by lia. replace (8 - (7 - j))%nat with (S j) by lia. replace (7 - (7 - j))%nat with j by lia. apply slice_lo. apply Hb. exact Hj. }
  pose proof (S0 i Hi) as A. pose proof (S1 i Hi) as B. clear S0 S1 M.
  do 8 (destruct i as [|i]; [cbn [Nat.sub] in A, B |- *; unfold vec_reg0, vec_reg1; rewrite A, B; try (change (p2 0) with 1; rewrite !Z.mul_1_r); split; reflexivity|]). lia.
Qed.

(** ** The registers *)
Lemma xor_all_app l m : xor_all (l ++ m) = Z.lxor (xor_all l) (xor_all m).
Proof. induction l as [|x l IH]; [reflexivity|]. cbn [app xor_all fold_right]. unfold xor_all in *. rewrite IH. apply eq_sym, Z.lxor_assoc. Qed.
Theorem two_values : forall h t, (t < length h)%nat ->
  shows h t = (xor_all (map (fun x => vec_reg0 (fst x) (fst (snd x))) (firstn t h)), xor_all (map (fun x => vec_reg1 (fst x) (snd (snd x))) (firstn t h))).
Proof.
  intros h t Ht. unfold shows. rewrite (outs_nth _ _ h t ([], (0, 0)%nat) (0, 0) Ht).
  assert (F : forall l, final sobol_two sobol_two_init l = (xor_all (map (fun x => vec_reg0 (fst x) (fst (snd x))) l), xor_all (map (fun x => vec_reg1 (fst x) (snd (snd x))) l))).
  { induction l as [|[d [i j]] l IH] using rev_ind; [reflexivity|]. rewrite final_snoc, IH, !map_app, !xor_all_app. cbn [map xor_all fold_right fst snd sobol_two]. rewrite !Z.lxor_0_r. reflexivity. }
  rewrite F. destruct (nth t h ([], (0, 0)%nat)) as [d [i j]]. reflexivity.
Qed.

(** ** The indices *)
Lemma lsz8_table : forallb (fun x => (fst (lsz8 (Z.of_nat x)) =? Nat.min 7 (lsz (N.of_nat x)))%nat && (snd (lsz8 (Z.of_nat x)) =? 7 - Nat.min 7 (lsz (N.of_nat x)))%nat) (seq 0 256) = true.
Proof. vm_compute. reflexivity. Qed.
Theorem lsz8_value : forall x, (x < 256)%nat -> lsz8 (Z.of_nat x) = (Nat.min 7 (lsz (N.of_nat x)), 7 - Nat.min 7 (lsz (N.of_nat x)))%nat.
Proof.
  intros x Hx. pose proof (proj1 (forallb_forall _ _) lsz8_table x ltac:(apply in_seq; lia)) as E. cbv beta in E.
  apply andb_true_iff in E. destruct E as [E1 E2]. apply Nat.eqb_eq in E1, E2. destruct (lsz8 (Z.of_nat x)) as [p q]. cbn [fst snd] in *. subst. reflexivity.
Qed.

(** What a register holds when the vectors V are chosen by the count: the sequence of V, again and again. *)
Definition comb (V : nat -> Z) (k : Z) : Z := xor_all (map (fun j => if Z.testbit k (Z.of_nat j) then V j else 0) (seq 0 8)).
Definition unit_vec (j : nat) : Z := p2 j.
Lemma xor_map_lxor (f g : nat -> Z) l : xor_all (map (fun j => Z.lxor (f j) (g j)) l) = Z.lxor (xor_all (map f l)) (xor_all (map g l)).
Proof.
  induction l as [|x l IH]; [reflexivity|]. cbn [map]. unfold xor_all in *. cbn [fold_right]. rewrite IH.
  rewrite !Z.lxor_assoc. f_equal. rewrite <- !Z.lxor_assoc. f_equal. apply Z.lxor_comm.
Qed.
Lemma comb_lxor V k l : comb V (Z.lxor k l) = Z.lxor (comb V k) (comb V l).
Proof.
  unfold comb. rewrite <- xor_map_lxor. f_equal. apply map_ext. intros j. rewrite Z.lxor_spec.
  destruct (Z.testbit k (Z.of_nat j)), (Z.testbit l (Z.of_nat j)); cbn [xorb]; rewrite ?Z.lxor_0_r, ?Z.lxor_0_l, ?Z.lxor_nilpotent; reflexivity.
Qed.
Lemma comb_unit V j : (j < 8)%nat -> comb V (p2 j) = V j.
Proof.
  intros Hj. unfold comb, xor_all. do 8 (destruct j as [|j]; [cbn -[Z.lxor]; rewrite ?Z.lxor_0_r, ?Z.lxor_0_l; reflexivity|]). lia.
Qed.
Lemma sob_comb V i : (i < 256)%nat -> sob V i = comb V (sob unit_vec i).
Proof.
  induction i as [|i IH]; intros Hi; [unfold comb; cbn; reflexivity|]. cbn [sob]. rewrite comb_lxor, IH by lia. f_equal. symmetry. apply comb_unit.
  apply lsz_lt. rewrite nat_N_Z. change (p2 8) with 256. lia.
Qed.
Fixpoint pick (V : nat -> Z) (t : nat) : Z :=
  match t with O => 0 | S m => Z.lxor (pick V m) (V (Nat.min 7 (lsz (N.of_nat (m mod 256))))) end.
Lemma pick_S V t : pick V (S t) = Z.lxor (pick V t) (V (Nat.min 7 (lsz (N.of_nat (t mod 256))))).
Proof. reflexivity. Qed.
Lemma pick_small V t : (t < 256)%nat -> pick V t = sob V t.
Proof.
  induction t as [|t IH]; intros Ht; [reflexivity|]. cbn [pick sob]. rewrite IH by lia. rewrite Nat.mod_small by lia. do 2 f_equal.
  apply Nat.min_r. assert (lsz (N.of_nat t) < 8)%nat by (apply lsz_lt; rewrite nat_N_Z; change (p2 8) with 256; lia). lia.
Qed.
Lemma unit_255 : sob unit_vec 255 = 128.
Proof. vm_compute. reflexivity. Qed.
Lemma pick_256 V : pick V 256 = 0.
Proof.
  change (pick V 256) with (pick V (S 255)). rewrite pick_S. rewrite pick_small by lia. rewrite sob_comb by lia. rewrite unit_255.
  change 128 with (p2 7). rewrite comb_unit by lia. change (Nat.min 7 (lsz (N.of_nat (255 mod 256)))) with 7%nat. apply Z.lxor_nilpotent.
Qed.
Lemma pick_add V q r : (r <= 256)%nat -> pick V (q * 256 + r) = pick V r.
Proof.
  revert r. induction q as [|q IH]; intros r Hr; [reflexivity|]. replace (S q * 256 + r)%nat with (q * 256 + 256 + r)%nat by lia.
  induction r as [|r IHr]; [rewrite Nat.add_0_r, IH by lia; apply pick_256|].
  rewrite Nat.add_succ_r. rewrite !pick_S. rewrite IHr by lia.
  replace (q * 256 + 256 + r)%nat with (r + (q + 1) * 256)%nat by lia. rewrite Nat.mod_add by lia. reflexivity.
Qed.
Theorem pick_value V t : pick V t = sob V (t mod 256).
Proof.
  rewrite (Nat.div_mod_eq t 256) at 1. pose proof (Nat.mod_upper_bound t 256 ltac:(lia)). rewrite (Nat.mul_comm 256), pick_add by lia. apply pick_small. lia.
Qed.

Lemma pick_list (V : nat -> Z) t : xor_all (map (fun m => V (Nat.min 7 (lsz (N.of_nat (m mod 256))))) (seq 0 t)) = pick V t.
Proof. induction t as [|t IH]; [reflexivity|]. rewrite seq_S, map_app, xor_all_app, IH. cbn [map xor_all fold_right pick Nat.add]. rewrite Z.lxor_0_r. reflexivity. Qed.

Lemma clocks_first a b idx n t : (t <= n)%nat -> firstn t (clocks a b idx n) = clocks a b idx t.
Proof.
  intros H. unfold clocks. rewrite firstn_map. f_equal. revert t H. generalize 0%nat. induction n as [|n IH]; intros s t H; [destruct t; [reflexivity|lia]|].
  destruct t as [|t]; [reflexivity|]. cbn [seq firstn]. f_equal. apply IH. lia.
Qed.
Lemma clocks_show a b idx n t : vecs a -> vecs b -> (t < n)%nat -> (forall s, (fst (idx s) < 8)%nat /\ (snd (idx s) < 8)%nat) ->
  shows (clocks a b idx n) t = (xor_all (map (fun s => vec_of a (fst (idx s))) (seq 0 t)), xor_all (map (fun s => vec_of b (snd (idx s))) (seq 0 t))).
Proof.
  intros Ha Hb Ht Hi. rewrite two_values by (unfold clocks; rewrite map_length, seq_length; exact Ht). rewrite clocks_first by lia. unfold clocks. rewrite !map_map. cbn [fst snd].
  f_equal; f_equal; apply map_ext; intros s; destruct (Hi s) as [I0 I1]; [apply (merged_vecs a b _ Ha Hb I0)|apply (merged_vecs a b _ Ha Hb I1)].
Qed.
Lemma count_idx_value t : count_idx t = (Nat.min 7 (lsz (N.of_nat (t mod 256))), 7 - Nat.min 7 (lsz (N.of_nat (t mod 256))))%nat.
Proof. unfold count_idx. apply lsz8_value. apply Nat.mod_upper_bound. lia. Qed.

Definition turned (a : list Z) (i : nat) : Z := vec_of a (7 - i).
Theorem two_both : forall a b n t, vecs a -> vecs b -> (t < n)%nat ->
  shows (clocks a b both_low n) t = (sob (vec_of a) (t mod 256), sob (vec_of b) (t mod 256)).
Proof.
  intros a b n t Ha Hb Ht. rewrite clocks_show by (try assumption; intros s; unfold both_low; rewrite count_idx_value; cbn [fst snd]; lia).
  rewrite <- !pick_value, <- !pick_list. f_equal; f_equal; apply map_ext; intros s; unfold both_low; rewrite count_idx_value; reflexivity.
Qed.
Theorem two_count : forall a b n t, vecs a -> vecs b -> (t < n)%nat ->
  shows (clocks a b count_idx n) t = (sob (vec_of a) (t mod 256), sob (turned b) (t mod 256)).
Proof.
  intros a b n t Ha Hb Ht. rewrite clocks_show by (try assumption; intros s; rewrite count_idx_value; cbn [fst snd]; lia).
  rewrite <- !pick_value, <- !pick_list. f_equal; f_equal; apply map_ext; intros s; rewrite count_idx_value; reflexivity.
Qed.
Lemma points_nth V i n : (i < n)%nat -> nth i (sobol_points V n) 0 = sob V i.
Proof.
  intros Hi. rewrite sobol_points_map. rewrite (nth_indep _ 0 (sob V 0)) by (rewrite map_length, seq_length; exact Hi). rewrite map_nth, seq_nth by exact Hi. reflexivity.
Qed.

(** ** Every value once *)
Lemma odd_dirvec a : odd_vecs a -> dirvec_ok 8 (vec_of a).
Proof.
  intros [[La Ha] Ho] j Hj. exists (nth j a 0). split; [reflexivity|]. split; [apply Ho, Hj|]. pose proof (Ha j Hj). pose proof (Ho j Hj) as O.
  assert (nth j a 0 <> 0) by (intros E; rewrite E in O; discriminate). lia.
Qed.
Lemma sob_vec_perm a : odd_vecs a -> Permutation (map (sob (vec_of a)) (seq 0 256)) (zrange 256).
Proof.
  intros H. pose proof (sobw_perm 8 (vec_of a) (odd_dirvec a H) 8 (le_n 8)) as P. change (2 ^ 8)%nat with 256%nat in P.
  erewrite map_ext in P; [exact P|]. intros i. unfold sobw. change (p2 (8 - 8)) with 1. apply Z.div_1_r.
Qed.
Definition rev8 (k : Z) : Z := zsum (map (fun j => b2z (Z.testbit k (Z.of_nat (7 - j))) * p2 j) (seq 0 8)).
Lemma rev8_table : forallb (fun k => forallb (fun j => Bool.eqb (Z.testbit (rev8 (Z.of_nat k)) (Z.of_nat j)) (Z.testbit (Z.of_nat k) (Z.of_nat (7 - j)))) (seq 0 8) && (rev8 (rev8 (Z.of_nat k)) =? Z.of_nat k) && (0 <=? rev8 (Z.of_nat k)) && (rev8 (Z.of_nat k) <? 256)) (seq 0 256) = true.
Proof. vm_compute. reflexivity. Qed.
Lemma rev8_fact k : 0 <= k < 256 -> (forall j, (j < 8)%nat -> Z.testbit (rev8 k) (Z.of_nat j) = Z.testbit k (Z.of_nat (7 - j))) /\ rev8 (rev8 k) = k /\ 0 <= rev8 k < 256.
Proof.
  intros Hk. pose proof (proj1 (forallb_forall _ _) rev8_table (Z.to_nat k) ltac:(apply in_seq; lia)) as E. cbv beta in E. rewrite Z2Nat.id in E by lia.
  apply andb_true_iff in E. destruct E as [E E4]. apply andb_true_iff in E. destruct E as [E E3]. apply andb_true_iff in E. destruct E as [E1 E2].
  split; [|lia]. intros j Hj. pose proof (proj1 (forallb_forall _ _) E1 j ltac:(apply in_seq; lia)) as E. apply Bool.eqb_prop, E.
Qed.
Lemma rev_seq8 {A} (f : nat -> A) : map f [7; 6; 5; 4; 3; 2; 1; 0]%nat = map (fun j => f (7 - j)%nat) (seq 0 8).
Proof. reflexivity. Qed.
Lemma xor_all_rev l : xor_all (rev l) = xor_all l.
Proof. induction l as [|x l IH]; [reflexivity|]. cbn [rev]. rewrite xor_all_app, IH. unfold xor_all. cbn [fold_right]. rewrite Z.lxor_0_r. apply Z.lxor_comm. Qed.
Lemma comb_turned a k : 0 <= k < 256 -> comb (turned a) k = comb (vec_of a) (rev8 k).
Proof.
  intros Hk. destruct (rev8_fact k Hk) as (T & _ & _). unfold comb.
  rewrite <- (xor_all_rev (map (fun j => if Z.testbit (rev8 k) (Z.of_nat j) then vec_of a j else 0) (seq 0 8))).
  rewrite <- map_rev. change (rev (seq 0 8)) with [7; 6; 5; 4; 3; 2; 1; 0]%nat. rewrite rev_seq8. f_equal. apply map_ext_in. intros j Hj. apply in_seq in Hj.
  rewrite T by lia. replace (7 - (7 - j))%nat with j by lia. reflexivity.
Qed.
(** The count whose Gray code is k. *)
Definition ungray (k : Z) : nat := Z.to_nat (xor_all (map (fun j => k / p2 j) (seq 0 8))).
Lemma unit_table : forallb (fun k => (0 <=? sob unit_vec k) && (sob unit_vec k <? 256) && ((ungray (Z.of_nat k) <? 256)%nat && (sob unit_vec (ungray (Z.of_nat k)) =? Z.of_nat k))) (seq 0 256) = true.
Proof. vm_compute. reflexivity. Qed.
Lemma unit_fact k : (k < 256)%nat -> 0 <= sob unit_vec k < 256 /\ exists i, (i < 256)%nat /\ sob unit_vec i = Z.of_nat k.
Proof.
  intros Hk. pose proof (proj1 (forallb_forall _ _) unit_table k ltac:(apply in_seq; lia)) as E. cbv beta in E. apply andb_true_iff in E. destruct E as [E E3].
  split; [lia|]. apply andb_true_iff in E3. destruct E3 as [E3 E4]. exists (ungray (Z.of_nat k)). split; [apply Nat.ltb_lt, E3|apply Z.eqb_eq, E4].
Qed.
Lemma unit_inj : forall i j, (i < 256)%nat -> (j < 256)%nat -> sob unit_vec i = sob unit_vec j -> i = j.
Proof.
  assert (L : length (map (sob unit_vec) (seq 0 256)) = length (map Z.of_nat (seq 0 256))) by (rewrite !map_length; reflexivity).
  assert (N0 : NoDup (map Z.of_nat (seq 0 256))) by (apply NoDup_map_in; [intros x y _ _ E; lia|apply seq_NoDup]).
  assert (N1 : NoDup (map (sob unit_vec) (seq 0 256))).
  { apply (NoDup_incl_NoDup N0); [lia|]. intros z Hz. apply in_map_iff in Hz. destruct Hz as (k & <- & Hk). apply in_seq in Hk.
    destruct (unit_fact k ltac:(lia)) as (_ & i & Hi & E). rewrite <- E. apply in_map, in_seq. lia. }
  intros i j Hi Hj E. apply (proj1 (NoDup_nth (map (sob unit_vec) (seq 0 256)) 0) N1); [rewrite map_length, seq_length; lia|rewrite map_length, seq_length; lia|].
  assert (T : forall k, (k < 256)%nat -> nth k (map (sob unit_vec) (seq 0 256)) 0 = sob unit_vec k).
  { intros k Hk. rewrite (nth_indep _ 0 (sob unit_vec 0)) by (rewrite map_length, seq_length; lia). rewrite map_nth, seq_nth by lia. reflexivity. }
  rewrite !T by assumption. exact E.
Qed.
Lemma sob_bound V i : (forall j, (j < 8)%nat -> 0 <= V j < 256) -> (i < 256)%nat -> 0 <= sob V i < 256.
Proof.
  intros HV. induction i as [|i IH]; intros Hi; cbn [sob]; [lia|].
  assert (L : (lsz (N.of_nat i) < 8)%nat) by (apply lsz_lt; rewrite nat_N_Z; change (p2 8) with 256; lia).
  specialize (IH ltac:(lia)). pose proof (HV _ L) as B. set (x := sob V i) in *. set (y := V (lsz (N.of_nat i))) in *.
  assert (N : 0 <= Z.lxor x y) by (apply Z.lxor_nonneg; lia). split; [exact N|].
  apply (bits_lt _ 8 N). intros b Hb. rewrite Z.lxor_spec.
  assert (F : forall z, 0 <= z < 256 -> Z.testbit z b = false).
  { intros z Hz. destruct (Z.eq_dec z 0) as [->|Nz]; [apply Z.bits_0|]. apply Z.bits_above_log2; [lia|]. assert (Z.log2 z < 8) by (apply Z.log2_lt_pow2; lia). lia. }
  rewrite !F by assumption. reflexivity.
Qed.
Lemma vec_of_bound a j : vecs a -> (j < 8)%nat -> 0 <= vec_of a j < 256.
Proof.
  intros [_ Ha] Hj. pose proof (Ha j Hj) as B. unfold vec_of. pose proof (p2_pos (7 - j)). change 256 with (p2 8).
  replace 8%nat with (S j + (7 - j))%nat by lia. rewrite p2_add. nia.
Qed.
Lemma turned_perm a : odd_vecs a -> Permutation (map (sob (turned a)) (seq 0 256)) (zrange 256).
Proof.
  intros H. assert (Hv := proj1 H). apply nodup_range_perm.
  - apply NoDup_map_in; [|apply seq_NoDup]. intros x y Hx Hy E. apply in_seq in Hx, Hy.
    rewrite !(sob_comb (turned a)) in E by lia. destruct (unit_fact x ltac:(lia)) as (Bx & _). destruct (unit_fact y ltac:(lia)) as (By & _).
    rewrite !comb_turned in E by assumption. destruct (rev8_fact _ Bx) as (_ & Rx & RBx). destruct (rev8_fact _ By) as (_ & Ry & RBy).
    destruct (unit_fact (Z.to_nat (rev8 (sob unit_vec x))) ltac:(lia)) as (_ & i & Hi & Ei). rewrite Z2Nat.id in Ei by lia.
    destruct (unit_fact (Z.to_nat (rev8 (sob unit_vec y))) ltac:(lia)) as (_ & j & Hj & Ej). rewrite Z2Nat.id in Ej by lia.
    rewrite <- Ei, <- Ej, <- !sob_comb in E by assumption.
    assert (Eij : i = j) by (apply (sob_inj 8 (vec_of a) (odd_dirvec a H) 8 (le_n 8)); assumption). subst j. rewrite Ei in Ej.
    apply unit_inj; [lia|lia|]. rewrite <- Rx, <- Ry, Ej. reflexivity.
  - rewrite map_length, seq_length. reflexivity.
  - intros z Hz. apply in_map_iff in Hz. destruct Hz as (i & <- & Hi). apply in_seq in Hi. apply sob_bound; [|lia]. intros j Hj. apply vec_of_bound; [exact Hv|lia].
Qed.

Lemma aligned_map (f : nat -> Z) q : map (fun t => f (t mod 256)%nat) (seq (q * 256) 256) = map f (seq 0 256).
Proof.
  assert (G : forall s n, (s + n <= 256)%nat -> map (fun t => f (t mod 256)%nat) (seq (q * 256 + s) n) = map f (seq s n)).
  { intros s n. revert s. induction n as [|n IH]; intros s H; [reflexivity|]. cbn [seq map]. rewrite <- Nat.add_succ_r, IH by lia. f_equal. f_equal.
    rewrite Nat.add_comm, Nat.mod_add by lia. apply Nat.mod_small. lia. }
  specialize (G 0%nat 256%nat (le_n _)). rewrite Nat.add_0_r in G. exact G.
Qed.
Theorem two_perm : forall a b n q, odd_vecs a -> odd_vecs b -> (q * 256 + 256 <= n)%nat ->
  Permutation (map (fun t => fst (shows (clocks a b count_idx n) t)) (seq (q * 256) 256)) (zrange 256) /\
  Permutation (map (fun t => snd (shows (clocks a b count_idx n) t)) (seq (q * 256) 256)) (zrange 256).
Proof.
  intros a b n q Ha Hb Hn. split.
  - rewrite (map_ext_in _ (fun t => sob (vec_of a) (t mod 256)%nat) (seq (q * 256) 256)).
    + rewrite aligned_map. apply sob_vec_perm, Ha.
    + intros t Ht. apply in_seq in Ht. rewrite two_count by (try apply Ha; try apply Hb; lia). reflexivity.
  - rewrite (map_ext_in _ (fun t => sob (turned b) (t mod 256)%nat) (seq (q * 256) 256)).
    + rewrite aligned_map. apply turned_perm, Hb.
    + intros t Ht. apply in_seq in Ht. rewrite two_count by (try apply Ha; try apply Hb; lia). reflexivity.
Qed.

(** ** What the reversed index does *)
Definition plain_vecs : list Z := [1; 1; 1; 1; 1; 1; 1; 1].
Lemma plain_odd : odd_vecs plain_vecs.
Proof. split; [split; [reflexivity|]|]; intros i Hi; do 8 (destruct i as [|i]; [try split; reflexivity || (vm_compute; discriminate)|]); lia. Qed.
Lemma turned_low_table : forallb (fun t => (sob (turned plain_vecs) t <? 128) && negb (sob (turned plain_vecs) (128 + t) <? 128)) (seq 0 128) = true.
Proof. vm_compute. reflexivity. Qed.
Theorem two_reverse_low : forall a n t, vecs a -> (t < n)%nat ->
  (snd (shows (clocks a plain_vecs count_idx n) t) < 128 <-> (t mod 256 < 128)%nat).
Proof.
  intros a n t Ha Ht. rewrite two_count by (try assumption; apply plain_odd). cbn [snd]. pose proof (Nat.mod_upper_bound t 256 ltac:(lia)) as B.
  set (r := (t mod 256)%nat) in *. clearbody r. destruct (Nat.lt_ge_cases r 128) as [L|G].
  - pose proof (proj1 (forallb_forall _ _) turned_low_table r ltac:(apply in_seq; lia)) as E. cbv beta in E. lia.
  - pose proof (proj1 (forallb_forall _ _) turned_low_table (r - 128)%nat ltac:(apply in_seq; lia)) as E. cbv beta in E. replace (128 + (r - 128))%nat with r in E by lia. lia.
Qed.

(** ** What a Gray-coded word does *)
Lemma gray_idx_range s : (fst (gray_idx s) < 8)%nat /\ (snd (gray_idx s) < 8)%nat.
Proof.
  assert (T : forallb (fun x => let i := lsz8 (Z.lxor (Z.of_nat x / 2) (Z.of_nat x)) in (fst i <? 8)%nat && (snd i <? 8)%nat) (seq 0 256) = true) by (vm_compute; reflexivity).
  pose proof (proj1 (forallb_forall _ _) T (s mod 256)%nat) as E. cbv beta zeta in E. unfold gray_idx. pose proof (Nat.mod_upper_bound s 256 ltac:(lia)).
  specialize (E ltac:(apply in_seq; lia)). lia.
Qed.
Theorem two_gray : forall a b n, vecs a -> vecs b -> (6 <= n)%nat -> shows (clocks a b gray_idx n) 5 = shows (clocks a b gray_idx n) 3.
Proof.
  intros a b n Ha Hb Hn. rewrite !clocks_show by (try assumption; try lia; apply gray_idx_range).
  assert (E3 : gray_idx 3 = (0, 7)%nat) by (vm_compute; reflexivity). assert (E4 : gray_idx 4 = (0, 7)%nat) by (vm_compute; reflexivity).
  change (seq 0 5) with (seq 0 3 ++ [3; 4])%nat. rewrite !map_app, !xor_all_app. cbn [map]. rewrite E3, E4. unfold xor_all at 2 4. cbn [fold_right fst snd].
  rewrite !Z.lxor_0_r, !Z.lxor_nilpotent, !Z.lxor_0_r. reflexivity.
Qed.
Theorem two_sobol : forall a b n t, vecs a -> vecs b -> (t < n)%nat ->
  shows (clocks a b both_low n) t = (nth (t mod 256) (sobol_points (vec_of a) 256) 0, nth (t mod 256) (sobol_points (vec_of b) 256) 0) /\
  fst (shows (clocks a b count_idx n) t) = nth (t mod 256) (sobol_points (vec_of a) 256) 0 /\
  snd (shows (clocks a b count_idx n) t) = nth (t mod 256) (sobol_points (fun i => vec_of b (7 - i)) 256) 0.
Proof.
  intros a b n t Ha Hb Ht. pose proof (Nat.mod_upper_bound t 256 ltac:(lia)) as B. rewrite two_both, two_count by assumption. rewrite !points_nth by exact B.
  split; [reflexivity|]. split; reflexivity.
Qed.
Theorem two_not_sobol : exists a b t, odd_vecs a /\ odd_vecs b /\ snd (shows (clocks a b count_idx 4) t) <> nth (t mod 256) (sobol_points (vec_of b) 256) 0 /\ (t < 4)%nat.
Proof. exists plain_vecs, plain_vecs, 1%nat. split; [apply plain_odd|]. split; [apply plain_odd|]. split; [vm_compute; discriminate|lia]. Qed.
