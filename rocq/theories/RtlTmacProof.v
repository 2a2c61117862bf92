(** Proofs about the temporally coded multiply-accumulate units. *)
Require Import Verif.BaseLemmas Verif.RtlMacModel Verif.RtlMacSpec Verif.RtlTmacModel Verif.RtlTmacSpec.
Require Import Verif.GenProof Verif.RtlProof Verif.RtlRngProof Verif.RtlCountProof Verif.RtlMulProof Verif.RtlMacProof.
Open Scope Z_scope.

Lemma age_snoc h x i : age (h ++ [x]) (length (h ++ [x])) i =
  if snd (port_a (nth i x (0, 0, 0, 0))) =? 1 then 0%nat else S (age h (length h) i).
Proof. unfold age, lane_in, since. rewrite !firstn_all, !map_app, fold_left_app. reflexivity. Qed.
Lemma age_prefix h t i : (t <= length h)%nat -> age (firstn t h) (length (firstn t h)) i = age h t i.
Proof. intros H. unfold age. rewrite firstn_all. reflexivity. Qed.
Lemma firstn_short {A} (h : list A) r t : (t <= length h)%nat -> firstn t (h ++ r) = firstn t h.
Proof. intros H. rewrite firstn_app. replace (t - length h)%nat with 0%nat by lia. cbn [firstn]. apply app_nil_r. Qed.
Lemma running_app h r t i : (t <= length h)%nat -> running (h ++ r) t i = running h t i.
Proof. intros H. unfold running, age, held_a. rewrite firstn_short by exact H. reflexivity. Qed.
Lemma prod_uni_app h r t i : (t <= length h)%nat -> prod_uni (h ++ r) t i = prod_uni h t i.
Proof. intros H. unfold prod_uni, below, held_b. rewrite running_app, firstn_short by exact H. reflexivity. Qed.
Lemma prod_bi_app h r t i : (t <= length h)%nat -> prod_bi (h ++ r) t i = prod_bi h t i.
Proof. intros H. unfold prod_bi, below, held_b. rewrite running_app, firstn_short by exact H. reflexivity. Qed.
Lemma rows8_snoc h x : rows8 (h ++ [x]) -> rows8 h /\ length x = 16%nat /\ Forall (fun y => 0 <= fst (port_a y) < 256) x.
Proof.
  intros [H1 H2]. apply rows_snoc in H1. apply Forall_app in H2. destruct H1, H2 as [H2 H3].
  repeat split; try assumption. exact (Forall_inv H3).
Qed.
Lemma rows8_firstn h t : rows8 h -> rows8 (firstn t h).
Proof. intros [H1 H2]. split; apply BaseLemmas.Forall_firstn; assumption. Qed.
Lemma held_range h i : rows8 h -> (i < 16)%nat -> 0 <= held_a h (length h) i < 256.
Proof.
  intros Hr Hi. induction h as [|x h IH] using rev_ind; [cbn; lia|]. apply rows8_snoc in Hr. destruct Hr as (Hr & Lx & Hx).
  rewrite held_snoc_a. unfold mul_load. destruct (_ =? 1); [|exact (IH Hr)]. apply (proj1 (Forall_forall _ _) Hx). apply nth_In. lia.
Qed.

(** The registers of a multiplier. *)
Definition tm_buf (h : list (list mul_in)) (i : nat) : Z := Z.max 0 (held_a h (length h) i - Z.of_nat (age h (length h) i)).
Definition tm_stop (h : list (list mul_in)) (i : nat) : Z := bnot (b2z (running h (length h) i)).
Lemma tm_count h x i : rows8 (h ++ [x]) -> (i < 16)%nat ->
  tmul_count 8 (tm_buf h i) (snd (port_a (nth i x (0, 0, 0, 0)))) (fst (port_a (nth i x (0, 0, 0, 0)))) = (tm_buf (h ++ [x]) i, tm_stop (h ++ [x]) i).
Proof.
  intros Hr Hi. pose proof (held_range (h ++ [x]) i Hr Hi) as R'. apply rows8_snoc in Hr. destruct Hr as (Hr & Lx & Hx).
  pose proof (held_range h i Hr Hi) as R. unfold tm_buf, tm_stop, running in *. rewrite held_snoc_a, age_snoc in *. unfold mul_load, tmul_count in *.
  destruct (snd (port_a (nth i x (0, 0, 0, 0))) =? 1) eqn:E.
  - cbn [Nat.leb andb b2z]. f_equal. lia.
  - destruct (Z.eqb_spec (Z.max 0 (held_a h (length h) i - Z.of_nat (age h (length h) i))) 0) as [Z0|Z0]; cbn [negb].
    + f_equal; [lia|]. replace (Z.of_nat (S (age h (length h) i)) <=? held_a h (length h) i) with false by (symmetry; apply Z.leb_gt; lia).
      rewrite andb_false_r. reflexivity.
    + f_equal.
      * unfold trunc. change (p2 8) with 256. rewrite Z.mod_small by lia. lia.
      * replace (Z.of_nat (S (age h (length h) i)) <=? held_a h (length h) i) with true by (symmetry; apply Z.leb_le; lia). reflexivity.
Qed.
Lemma bnot_b2z b : bnot (bnot (b2z b)) = b2z b.
Proof. destruct b; reflexivity. Qed.
Lemma land_b2z a b : Z.land (b2z a) (b2z b) = b2z (a && b).
Proof. destruct a, b; reflexivity. Qed.
Lemma xnor_b2z a b : bnot (Z.lxor (b2z a) (b2z b)) = b2z (Bool.eqb a b).
Proof. destruct a, b; reflexivity. Qed.
Lemma gtb_below h t i : (held_b h t i >? free_run 8 t) = below h t i.
Proof. unfold below. rewrite Z.gtb_ltb. reflexivity. Qed.

Definition tm_regs (h : list (list mul_in)) (i : nat) : tmul_regs := ((tm_buf h i, tm_stop h i, held_b h (length h) i), sob_st 8 (length h)).
Lemma tm_step_uni h x i : rows8 (h ++ [x]) -> (i < 16)%nat ->
  tmac_mul_uni (tm_regs h i) (nth i x (0, 0, 0, 0)) = (tm_regs (h ++ [x]) i, b2z (prod_uni h (length h) i)).
Proof.
  intros Hr Hi. pose proof (tm_count h x i Hr Hi) as C. unfold tm_regs at 2. rewrite held_snoc_b, app_length, Nat.add_1_r.
  unfold tm_regs, tmac_mul_uni. destruct (nth i x (0, 0, 0, 0)) as [[[ia ib] la] lb]. cbn [port_a port_b fst snd] in C |- *.
  rewrite sobol_en by lia. rewrite C. rewrite <- free_run_at by lia. rewrite gtb_below. unfold tm_stop at 2. rewrite bnot_b2z, land_b2z. reflexivity.
Qed.
Lemma tm_step_bi h x i : rows8 (h ++ [x]) -> (i < 16)%nat ->
  tmac_mul_bi (tm_regs h i) (nth i x (0, 0, 0, 0)) = (tm_regs (h ++ [x]) i, b2z (prod_bi h (length h) i)).
Proof.
  intros Hr Hi. pose proof (tm_count h x i Hr Hi) as C. unfold tm_regs at 2. rewrite held_snoc_b, app_length, Nat.add_1_r.
  unfold tm_regs, tmac_mul_bi. destruct (nth i x (0, 0, 0, 0)) as [[[ia ib] la] lb]. cbn [port_a port_b fst snd] in C |- *.
  rewrite sobol_en by lia. rewrite C. rewrite <- free_run_at by lia. rewrite gtb_below. unfold tm_stop at 2. rewrite bnot_b2z, xnor_b2z. reflexivity.
Qed.
Lemma tm_state mul (bitof : list (list mul_in) -> nat -> nat -> bool) h :
  (forall h x i, rows8 (h ++ [x]) -> (i < 16)%nat -> mul (tm_regs h i) (nth i x (0, 0, 0, 0)) = (tm_regs (h ++ [x]) i, b2z (bitof h (length h) i))) ->
  rows8 h -> final (mac_lanes mul) (repeat tmul_init 16) h = map (tm_regs h) (seq 0 16).
Proof.
  intros Hm. induction h as [|x h IH] using rev_ind; intros Hr.
  - cbn [final run fst]. unfold tmul_init. rewrite <- (sob_st_0 8) by lia. reflexivity.
  - pose proof (rows8_snoc _ _ Hr) as (Hr1 & Lx & _). rewrite final_snoc, (IH Hr1), (lanes_tab mul _ (0, 0, 0, 0) 16 x Lx). cbn [fst].
    apply map_ext_in. intros i Hi. apply in_seq in Hi. rewrite (Hm h x i Hr) by lia. reflexivity.
Qed.
Lemma tm_col mul (bitof : list (list mul_in) -> nat -> nat -> bool) h t :
  (forall h x i, rows8 (h ++ [x]) -> (i < 16)%nat -> mul (tm_regs h i) (nth i x (0, 0, 0, 0)) = (tm_regs (h ++ [x]) i, b2z (bitof h (length h) i))) ->
  (forall h r t i, (t <= length h)%nat -> bitof (h ++ r) t i = bitof h t i) ->
  rows8 h -> (t < length h)%nat ->
  nth t (outs (mac_lanes mul) (repeat tmul_init 16) h) [] = map (fun i => b2z (bitof h t i)) (seq 0 16).
Proof.
  intros Hm Hp Hr Ht. rewrite (outs_nth _ _ h t [] [] Ht). rewrite (tm_state mul bitof _ Hm (rows8_firstn _ _ Hr)).
  assert (Hr' : rows8 (firstn t h ++ [nth t h []])) by (rewrite <- (firstn_S_nth h t [] Ht); apply rows8_firstn; exact Hr).
  pose proof (rows8_snoc _ _ Hr') as (_ & Lx & _). rewrite (lanes_tab mul _ (0, 0, 0, 0) 16 _ Lx). cbn [snd]. apply map_ext_in.
  intros i Hi. apply in_seq in Hi. rewrite (Hm _ _ i Hr') by lia. cbn [snd]. f_equal. rewrite firstn_length_le by lia.
  rewrite <- (firstn_skipn t h) at 2. rewrite Hp; [reflexivity|]. rewrite firstn_length_le; lia.
Qed.
Lemma tmac_uni_nth h t : rows8 h -> (S t < length h)%nat ->
  nth (S t) (outs tmac_uni_scaled tmac_init h) 0 = b2z (prod_uni h t (Z.to_nat (lane_of (free_run 8 t)))).
Proof.
  intros Hr Ht. unfold tmac_uni_scaled, tmac_init. rewrite wired_outs, mux_nth by (rewrite outs_length; exact Ht).
  rewrite (tm_col _ _ h t tm_step_uni prod_uni_app Hr) by lia. rewrite nth_tab by apply sel_nat. rewrite <- sel_lane. reflexivity.
Qed.
Lemma tmac_bi_nth h t : rows8 h -> (S t < length h)%nat ->
  nth (S t) (outs tmac_bi_scaled tmac_init h) 0 = b2z (prod_bi h t (Z.to_nat (lane_of (free_run 8 t)))).
Proof.
  intros Hr Ht. unfold tmac_bi_scaled, tmac_init. rewrite wired_outs, mux_nth by (rewrite outs_length; exact Ht).
  rewrite (tm_col _ _ h t tm_step_bi prod_bi_app Hr) by lia. rewrite nth_tab by apply sel_nat. rewrite <- sel_lane. reflexivity.
Qed.

(** ** tMAC_uni_nonscaled *)
Lemma prod_ones_app h r k n i : (k + n <= S (length h))%nat -> prod_ones (h ++ r) k n i = prod_ones h k n i.
Proof. intros H. apply countb_ext. intros u Hu. apply in_seq in Hu. apply prod_uni_app. lia. Qed.
Lemma prod_ones_S h n i : prod_ones h 0 (S n) i = prod_ones h 0 n i + b2z (prod_uni h n i).
Proof. unfold prod_ones. rewrite seq_S, countb_app. cbn [countb Nat.add]. destruct (prod_uni h n i); cbn [b2z]; lia. Qed.
Lemma emitted_app h r t : (t <= S (length h))%nat -> emitted (h ++ r) t = emitted h t.
Proof. intros H. unfold emitted, total. f_equal. apply map_ext. intros i. apply prod_ones_app. lia. Qed.
Lemma mod4 m a b c d : (a mod m + b mod m + c mod m + d mod m) mod m = (a + b + c + d) mod m.
Proof.
  rewrite Zplus_mod_idemp_r. replace (a mod m + b mod m + c mod m + d) with (a mod m + b mod m + d + c mod m) by lia. rewrite Zplus_mod_idemp_r.
  replace (a mod m + b mod m + d + c) with (a mod m + d + c + b mod m) by lia. rewrite Zplus_mod_idemp_r.
  replace (a mod m + d + c + b) with (d + c + b + a mod m) by lia. rewrite Zplus_mod_idemp_r. f_equal. lia.
Qed.
Definition quarter (h : list (list mul_in)) (n k : nat) : Z :=
  (prod_ones h 0 n (4 * k) + prod_ones h 0 n (4 * k + 1) + prod_ones h 0 n (4 * k + 2) + prod_ones h 0 n (4 * k + 3)) mod 256.
Lemma quarter_app h r n k : (n <= S (length h))%nat -> quarter (h ++ r) n k = quarter h n k.
Proof. intros H. unfold quarter. rewrite !prod_ones_app by lia. reflexivity. Qed.
Lemma quarters h n : (quarter h n 0 + quarter h n 1 + quarter h n 2 + quarter h n 3) mod 256 = emitted h n mod 256.
Proof. unfold quarter. rewrite mod4. f_equal. unfold emitted, total. cbn [seq map zsum Nat.mul Nat.add]. cbn. lia. Qed.
Definition tn_mul (h : list (list mul_in)) (i : nat) : Z * Z * Z := (tm_buf h i, tm_stop h i, held_b h (length h) i).
Definition tn_cnt (h : list (list mul_in)) (i : nat) : Z := prod_ones h 0 (length h) i mod 256.
Definition tn_regs (h : list (list mul_in)) : tmac_ns_regs :=
  let n := length h in
  ((sob_st 8 n, sob_st 8 n), map (tn_mul h) (seq 0 16), map (tn_cnt h) (seq 0 16), map (quarter h (n - 1)) (seq 0 4), emitted h (n - 2) mod 256).
Lemma tn_mul_step h x i : rows8 (h ++ [x]) -> (i < 16)%nat ->
  tmac_mul_shared (tn_mul h i) (nth i x (0, 0, 0, 0), free_run 8 (length h)) = (tn_mul (h ++ [x]) i, b2z (prod_uni h (length h) i)).
Proof.
  intros Hr Hi. pose proof (tm_count h x i Hr Hi) as C. unfold tn_mul at 2. rewrite held_snoc_b.
  unfold tn_mul, tmac_mul_shared. destruct (nth i x (0, 0, 0, 0)) as [[[ia ib] la] lb]. cbn [port_a port_b fst snd] in C |- *.
  rewrite C. rewrite gtb_below. unfold tm_stop at 2. rewrite bnot_b2z, land_b2z. reflexivity.
Qed.
Lemma map2_tabs {A B C} (f : A -> B -> C) (g : nat -> A) (g' : nat -> B) l : map2 f (map g l) (map g' l) = map (fun i => f (g i) (g' i)) l.
Proof. induction l as [|i l IH]; [reflexivity|]. cbn [map map2]. rewrite IH. reflexivity. Qed.
Lemma nth_pair (x : list mul_in) s i d : (i < length x)%nat -> nth i (map (fun y => (y, s)) x) (d, s) = (nth i x d, s : Z).
Proof. intros H. apply (map_nth (fun y => (y, s))). Qed.
Lemma quarter_nil k : quarter [] 0 k = 0.
Proof. reflexivity. Qed.
Lemma tn_step h x : rows8 (h ++ [x]) -> tmac_uni_nonscaled (tn_regs h) x = (tn_regs (h ++ [x]), b2z (free_run 8 (length h) <? emitted h (length h - 2) mod 256)).
Proof.
  intros Hr. pose proof (rows8_snoc _ _ Hr) as (_ & Lx & _). unfold tn_regs at 1. unfold tmac_uni_nonscaled. cbv zeta.
  rewrite !sobol_en by lia. rewrite <- free_run_at by lia.
  rewrite (lanes_tab tmac_mul_shared _ ((0, 0, 0, 0), free_run 8 (length h)) 16) by (rewrite map_length; exact Lx).
  rewrite Z.gtb_ltb. apply f_equal2; [|reflexivity]. unfold tn_regs. rewrite app_length, Nat.add_1_r. cbv zeta.
  apply f_equal2; [apply f_equal2; [apply f_equal2; [apply f_equal2; [reflexivity|]|]|]|].
  - apply map_ext_in. intros i Hi. apply in_seq in Hi. rewrite nth_pair by lia. rewrite tn_mul_step by (try exact Hr; lia). reflexivity.
  - rewrite map2_tabs. apply map_ext_in. intros i Hi. apply in_seq in Hi. rewrite nth_pair by lia. rewrite tn_mul_step by (try exact Hr; lia). cbn [snd].
    unfold tn_cnt. rewrite app_length, Nat.add_1_r, prod_ones_app by lia. rewrite prod_ones_S. unfold trunc. change (p2 8) with 256.
    apply Zplus_mod_idemp_l.
  - replace (S (length h) - 1)%nat with (length h) by lia. cbn [seq map nth]. unfold trunc, tn_cnt. change (p2 8) with 256. rewrite !mod4.
    rewrite !quarter_app by lia. reflexivity.
  - cbn [seq map nth]. unfold trunc. change (p2 8) with 256. rewrite quarters. rewrite emitted_app by lia. reflexivity.
Qed.
Lemma tn_state h : rows8 h -> final tmac_uni_nonscaled tmac_ns_init h = tn_regs h.
Proof.
  induction h as [|x h IH] using rev_ind; intros Hr.
  - cbn [final run fst]. unfold tmac_ns_init, tn_regs. rewrite <- (sob_st_0 8) by lia. reflexivity.
  - pose proof (rows8_snoc _ _ Hr) as (Hr1 & _). rewrite final_snoc, (IH Hr1), tn_step by exact Hr. reflexivity.
Qed.
Lemma tmac_ns_nth h t : rows8 h -> (t < length h)%nat ->
  nth t (outs tmac_uni_nonscaled tmac_ns_init h) 0 = b2z (free_run 8 t <? emitted h (t - 2) mod 256).
Proof.
  intros Hr Ht. rewrite (outs_nth _ _ h t [] 0 Ht), (tn_state _ (rows8_firstn _ _ Hr)).
  rewrite tn_step by (rewrite <- (firstn_S_nth h t [] Ht); apply rows8_firstn; exact Hr). cbn [snd]. rewrite firstn_length_le by lia.
  rewrite <- (firstn_skipn t h) at 2. rewrite emitted_app; [reflexivity|]. rewrite firstn_length_le; lia.
Qed.

(** ** After a load *)
Lemma no_load_nth row i : Forall no_load row -> no_load (nth i row (0, 0, 0, 0)).
Proof.
  intros H. destruct (Nat.lt_ge_cases i (length row)) as [L|L].
  - apply (proj1 (Forall_forall _ _) H). apply nth_In. exact L.
  - rewrite nth_overflow by exact L. split; reflexivity.
Qed.
Lemma idle_latched port i h (v : Z) : no_loads h -> (forall x, no_load x -> snd (port x) = 0) ->
  fold_left (fun v p => if snd p =? 1 then fst p else v) (map port (lane_in i h)) v = v.
Proof.
  intros H P. induction h as [|row h IH]; [reflexivity|]. change (lane_in i (row :: h)) with (nth i row (0, 0, 0, 0) :: lane_in i h).
  cbn [map fold_left]. rewrite (P _ (no_load_nth row i (Forall_inv H))).
  cbn [Z.eqb]. apply IH. exact (Forall_inv_tail H).
Qed.
Lemma idle_since i h n : no_loads h -> 
  fold_left (fun n l => if l =? 1 then 0%nat else S n) (map (fun x => snd (port_a x)) (lane_in i h)) n = (length h + n)%nat.
Proof.
  revert n. induction h as [|row h IH]; intros n H; [reflexivity|]. change (lane_in i (row :: h)) with (nth i row (0, 0, 0, 0) :: lane_in i h).
  cbn [map fold_left length].
  rewrite (proj1 (no_load_nth row i (Forall_inv H))). cbn [Z.eqb]. etransitivity; [apply (IH (S n)); exact (Forall_inv_tail H)|lia].
Qed.
Lemma firstn_load {A} (pre : list A) x idle j : (j <= length idle)%nat ->
  firstn (S (length pre) + j) (pre ++ x :: idle) = pre ++ x :: firstn j idle.
Proof.
  intros H. rewrite firstn_app, firstn_all2 by lia. replace (S (length pre) + j - length pre)%nat with (S j) by lia. reflexivity.
Qed.
Lemma mac_row_nth A B i : (i < 16)%nat -> nth i (mac_row A B) (0, 0, 0, 0) = (A i, B i, 1, 1).
Proof.
  intros H. unfold mac_row. rewrite (nth_indep _ _ ((fun i => (A i, B i, 1, 1)) 0%nat)) by (rewrite map_length, seq_length; exact H).
  rewrite (map_nth (fun i => (A i, B i, 1, 1))), seq_nth by exact H. reflexivity.
Qed.
Section after.
Variables (pre idle : list (list mul_in)) (A B : nat -> Z).
Hypothesis (Hidle : no_loads idle).
Let h := pre ++ mac_row A B :: idle.
Lemma after_held_a i j : (i < 16)%nat -> (j <= length idle)%nat -> held_a h (S (length pre) + j) i = A i.
Proof.
  intros Hi Hj. unfold held_a, h. rewrite firstn_load by exact Hj. unfold lane_in, latched. rewrite !map_app, fold_left_app. cbn [map fold_left].
  rewrite mac_row_nth by exact Hi. cbn [port_a fst snd]. change (1 =? 1) with true. cbv iota.
  apply (idle_latched port_a i (firstn j idle)); [apply BaseLemmas.Forall_firstn; exact Hidle|]. intros x [H _]. exact H.
Qed.
Lemma after_held_b i j : (i < 16)%nat -> (j <= length idle)%nat -> held_b h (S (length pre) + j) i = B i.
Proof.
  intros Hi Hj. unfold held_b, h. rewrite firstn_load by exact Hj. unfold lane_in, latched. rewrite !map_app, fold_left_app. cbn [map fold_left].
  rewrite mac_row_nth by exact Hi. cbn [port_b fst snd]. change (1 =? 1) with true. cbv iota.
  apply (idle_latched port_b i (firstn j idle)); [apply BaseLemmas.Forall_firstn; exact Hidle|]. intros x [_ H]. exact H.
Qed.
Lemma after_age i j : (i < 16)%nat -> (j <= length idle)%nat -> age h (S (length pre) + j) i = j.
Proof.
  intros Hi Hj. unfold age, since, h. rewrite firstn_load by exact Hj. unfold lane_in. rewrite !map_app, fold_left_app. cbn [map fold_left].
  rewrite mac_row_nth by exact Hi. cbn [port_a fst snd]. change (1 =? 1) with true. cbv iota.
  etransitivity; [apply (idle_since i (firstn j idle)); apply BaseLemmas.Forall_firstn; exact Hidle|]. rewrite firstn_length_le by exact Hj. lia.
Qed.
Lemma after_uni i j : (i < 16)%nat -> (j <= length idle)%nat -> prod_uni h (S (length pre) + j) i =
  ((1 <=? j)%nat && (Z.of_nat j <=? A i)) && (free_run 8 (S (length pre) + j) <? B i).
Proof. intros Hi Hj. unfold prod_uni, running, below. rewrite after_age, after_held_a, after_held_b by assumption. reflexivity. Qed.
Lemma after_ones i n : (i < 16)%nat -> 0 <= A i -> (Z.to_nat (A i) < n <= S (length idle))%nat ->
  prod_ones h (S (length pre)) n i = sobol_below (length pre + 2) (Z.to_nat (A i)) (B i).
Proof.
  intros Hi HA Hn. unfold prod_ones, sobol_below.
  replace n with (S (Z.to_nat (A i) + (n - S (Z.to_nat (A i)))))%nat by lia. cbn [seq countb].
  pose proof (after_uni i 0 Hi ltac:(lia)) as E0. rewrite Nat.add_0_r in E0. rewrite E0. cbn [Nat.leb andb].
  rewrite seq_app, countb_app. replace (S (S (length pre))) with (length pre + 2)%nat by lia.
  rewrite (countb_ext _ (fun u => free_run 8 u <? B i) (seq (length pre + 2) (Z.to_nat (A i)))).
  - rewrite (countb_ext (fun u => prod_uni h u i) (fun _ => false) (seq (length pre + 2 + Z.to_nat (A i)) _)).
    + assert (G : forall l : list nat, countb (fun _ => false) l = 0) by (induction l; [reflexivity|cbn [countb]; lia]). rewrite G. lia.
    + intros u Hu. apply in_seq in Hu. replace u with (S (length pre) + (u - S (length pre)))%nat by lia. rewrite after_uni by (try exact Hi; lia).
      replace (Z.of_nat (u - S (length pre)) <=? A i) with false by (symmetry; apply Z.leb_gt; lia). rewrite andb_false_r. reflexivity.
  - intros u Hu. apply in_seq in Hu. replace u with (S (length pre) + (u - S (length pre)))%nat at 1 by lia. rewrite after_uni by (try exact Hi; lia).
    replace (Z.of_nat (u - S (length pre)) <=? A i) with true by (symmetry; apply Z.leb_le; lia).
    replace (1 <=? u - S (length pre))%nat with true by (symmetry; apply Nat.leb_le; lia). cbn [andb]. f_equal. f_equal. lia.
Qed.
Lemma total_add f g : total (fun i => f i + g i) = total f + total g.
Proof. unfold total. induction (seq 0 16) as [|i l IH]; [reflexivity|]. cbn [map zsum]. rewrite IH. lia. Qed.
Lemma total_ext f g : (forall i, (i < 16)%nat -> f i = g i) -> total f = total g.
Proof. intros H. unfold total. f_equal. apply map_ext_in. intros i Hi. apply in_seq in Hi. apply H. lia. Qed.
Lemma after_emitted n : (forall i, (i < 16)%nat -> 0 <= A i /\ (Z.to_nat (A i) < n)%nat) -> (n <= S (length idle))%nat ->
  emitted h (S (length pre) + n) =
  emitted h (S (length pre)) + total (fun i => sobol_below (length pre + 2) (Z.to_nat (A i)) (B i)).
Proof.
  intros HA Hn. unfold emitted. rewrite <- total_add. apply total_ext. intros i Hi. destruct (HA i Hi) as [H1 H2].
  rewrite <- (after_ones i n Hi H1 ltac:(lia)). unfold prod_ones. rewrite seq_app, countb_app. reflexivity.
Qed.
End after.

(** The discrepancy of the generator. *)
Fixpoint sweep (B : Z) (l : list Z) (d lo hi : Z) : Z * Z * Z :=
  match l with [] => (d, lo, hi) | v :: r => let d' := d + (if v <? B then 256 else 0) - B in sweep B r d' (Z.min lo d') (Z.max hi d') end.
Lemma sweep_range B l : forall d lo hi d' lo' hi', lo <= d <= hi -> sweep B l d lo hi = (d', lo', hi') -> lo' <= lo /\ hi <= hi' /\
  d' = d + 256 * countb (fun v => v <? B) l - Z.of_nat (length l) * B /\
  forall t, (t <= length l)%nat -> lo' <= d + 256 * countb (fun v => v <? B) (firstn t l) - Z.of_nat t * B <= hi'.
Proof.
  induction l as [|v l IH]; intros d lo hi d' lo' hi' Hd E.
  - cbn [sweep] in E. injection E as <- <- <-. cbn [countb length]. split; [lia|split; [lia|split; [lia|]]].
    intros t Ht. cbn [length] in Ht. replace t with 0%nat by lia. cbn [firstn countb]. lia.
  - cbn [sweep] in E. cbv zeta in E. apply IH in E; [|lia]. destruct E as (E1 & E2 & E3 & E4).
    split; [lia|split; [lia|split]].
    + rewrite E3. cbn [countb length]. destruct (v <? B); lia.
    + intros t Ht. destruct t as [|t]; [cbn [firstn countb]; lia|]. cbn [length] in Ht. specialize (E4 t ltac:(lia)). cbn [firstn countb].
      destruct (v <? B); lia.
Qed.
Definition sobol512 : list Z := Eval vm_compute in map (free_run 8) (seq 0 512).
Lemma sobol512_eq : map (free_run 8) (seq 0 512) = sobol512.
Proof. vm_compute. reflexivity. Qed.
Lemma sweep_table : forallb (fun b => let '(d, lo, hi) := sweep (Z.of_nat b) sobol512 0 0 0 in (d =? 0) && (hi - lo <=? 1080)) (seq 0 257) = true.
Proof. vm_compute. reflexivity. Qed.
Lemma run_period q k : free_run 8 (q * 512 + k) = free_run 8 k.
Proof.
  assert (E8 : rng_after 8 512 = sobol_rtl_init) by (vm_compute; reflexivity).
  induction q as [|q IH]; [reflexivity|]. replace (S q * 512 + k)%nat with (512 + (q * 512 + k))%nat by lia.
  rewrite (free_run_from 8 512) by (try exact E8; lia). exact IH.
Qed.
Lemma below_split k n m B : sobol_below k (n + m) B = sobol_below k n B + sobol_below (k + n) m B.
Proof. unfold sobol_below. rewrite seq_app, countb_app. reflexivity. Qed.
Lemma below_period q k n B : sobol_below (q * 512 + k) n B = sobol_below k n B.
Proof.
  unfold sobol_below. revert k. induction n as [|n IH]; intros k; [reflexivity|]. cbn [seq countb]. rewrite run_period.
  replace (S (q * 512 + k)) with (q * 512 + S k)%nat by lia. rewrite IH. reflexivity.
Qed.
Lemma below_table t B : (t <= 512)%nat -> sobol_below 0 t B = countb (fun v => v <? B) (firstn t sobol512).
Proof.
  intros H. rewrite <- sobol512_eq, firstn_map. replace (firstn t (seq 0 512)) with (seq 0 t).
  - rewrite countb_map. reflexivity.
  - replace 512%nat with (t + (512 - t))%nat at 1 by lia. rewrite seq_app, firstn_app, seq_length.
    rewrite firstn_all2 by (rewrite seq_length; lia). rewrite Nat.sub_diag. cbn [firstn]. rewrite app_nil_r. reflexivity.
Qed.
Lemma below_error k n B : 0 <= B <= 256 -> Z.abs (256 * sobol_below k n B - Z.of_nat n * B) <= 1080.
Proof.
  intros HB. pose proof (proj1 (forallb_forall _ _) sweep_table (Z.to_nat B) ltac:(apply in_seq; lia)) as T. cbv beta in T. rewrite Z2Nat.id in T by lia.
  destruct (sweep B sobol512 0 0 0) as [[d lo] hi] eqn:E. apply andb_true_iff in T. destruct T as [T1 T2]. apply Z.eqb_eq in T1. apply Z.leb_le in T2.
  apply sweep_range in E; [|lia]. destruct E as (_ & _ & E3 & E4).
  assert (L : length sobol512 = 512%nat) by reflexivity. rewrite L in *.
  assert (P : sobol_below 0 512 B = 2 * B).
  { rewrite below_table by lia. rewrite <- L, firstn_all. lia. }
  assert (Q : forall q, sobol_below 0 (q * 512) B = 2 * Z.of_nat q * B).
  { induction q as [|q IH]; [reflexivity|]. replace (S q * 512)%nat with (q * 512 + 512)%nat by lia. rewrite below_split, IH.
    cbn [Nat.add]. replace (q * 512)%nat with (q * 512 + 0)%nat at 1 by lia. rewrite below_period, P. lia. }
  assert (D' : forall q r, (r < 512)%nat -> lo <= 256 * sobol_below 0 (q * 512 + r) B - Z.of_nat (q * 512 + r) * B <= hi).
  { intros q r Hr. rewrite below_split, Q. cbn [Nat.add].
    assert (Ep : sobol_below (q * 512) r B = sobol_below 0 r B)
      by (rewrite <- (below_period q 0 r B); f_equal; lia).
    rewrite Ep. specialize (E4 r ltac:(lia)). rewrite <- below_table in E4 by lia.
    rewrite Nat2Z.inj_add, Nat2Z.inj_mul. change (Z.of_nat 512) with 512. clear - E4.
    generalize dependent (sobol_below 0 r B). intros X E4.
    replace (256 * (2 * Z.of_nat q * B + X) - (Z.of_nat q * 512 + Z.of_nat r) * B) with (0 + 256 * X - Z.of_nat r * B) by ring. exact E4. }
  assert (D : forall t, lo <= 256 * sobol_below 0 t B - Z.of_nat t * B <= hi).
  { intros t. pose proof (D' (t / 512)%nat (t mod 512)%nat (Nat.mod_upper_bound t 512 ltac:(lia))) as H.
    rewrite (Nat.mul_comm (t / 512)), <- Nat.div_mod in H by lia. exact H. }
  pose proof (D k) as D1. pose proof (D (k + n)%nat) as D2. rewrite below_split in D2. cbn [Nat.add] in D2. lia.
Qed.

(** A period of tMAC_uni_nonscaled after a load. *)
Lemma period_count0 (f : Z -> bool) os p : (forall i, (i < 256)%nat -> nth (p * 256 + i) os 0 = b2z (f (free_run 8 (p * 256 + i)))) ->
  (p * 256 + 256 <= length os)%nat -> ones_from (p * 256) 256 os = countb f (zrange 256).
Proof.
  intros H L. rewrite ones_from_count by lia.
  rewrite (countb_ext _ (fun i => f (sob_at 8 (p * 2 ^ 8 + i)))).
  - rewrite <- (countb_map f (fun i => sob_at 8 (p * 2 ^ 8 + i))). apply BaseLemmas.countb_perm. exact (sob_at_period 8 p ltac:(lia)).
  - intros i Hi. apply in_seq in Hi. change (2 ^ 8)%nat with 256%nat. rewrite <- free_run_at by lia.
    rewrite H by lia. destruct (f (free_run 8 (p * 256 + i))); reflexivity.
Qed.
Lemma ns_load pre idle A B p : let h := pre ++ mac_row A B :: idle in rows8 h -> no_loads idle -> ops_ok A B ->
  (length pre + 259 <= p * 256)%nat -> (p * 256 + 256 <= length h)%nat ->
  ones_from (p * 256) 256 (outs tmac_uni_nonscaled tmac_ns_init h) =
  (emitted h (S (length pre)) + total (fun i => sobol_below (length pre + 2) (Z.to_nat (A i)) (B i))) mod 256.
Proof.
  intros h Hr Hi HAB Hp L. set (s := emitted h (S (length pre)) + total (fun i => sobol_below (length pre + 2) (Z.to_nat (A i)) (B i))).
  assert (Lh : length h = (S (length pre) + length idle)%nat) by (unfold h; rewrite app_length; cbn [length]; lia).
  rewrite (period_count0 (fun v => v <? s mod 256)); [|intros i H256|rewrite outs_length; exact L].
  - rewrite countb_lt_zrange. pose proof (Z.mod_pos_bound s 256 ltac:(lia)). unfold zclamp. change (Z.of_nat 256) with 256. lia.
  - rewrite tmac_ns_nth by (try exact Hr; lia). do 2 f_equal.
    replace (p * 256 + i - 2)%nat with (S (length pre) + (p * 256 + i - 2 - S (length pre)))%nat by lia. unfold h at 1. f_equal.
    apply after_emitted; [exact Hi| |lia]. intros j Hj. destruct (HAB j Hj) as [H _]. split; [lia|]. lia.
Qed.
Lemma total_error (f g : nat -> Z) c : (forall i, (i < 16)%nat -> Z.abs (f i - g i) <= c) -> Z.abs (total f - total g) <= 16 * c.
Proof.
  intros H. unfold total. assert (G : forall l, (forall i, In i l -> (i < 16)%nat) -> Z.abs (zsum (map f l) - zsum (map g l)) <= Z.of_nat (length l) * c).
  { induction l as [|i l IH]; intros Hl; [cbn; lia|]. cbn [map zsum length]. specialize (IH (fun j Hj => Hl j (or_intror Hj))).
    specialize (H i (Hl i (or_introl eq_refl))). lia. }
  apply (G (seq 0 16)). intros i Hi. apply in_seq in Hi. lia.
Qed.
Lemma total_scale k f : total (fun i => k * f i) = k * total f.
Proof. unfold total. induction (seq 0 16) as [|i l IH]; [cbn; lia|]. cbn [map zsum]. rewrite IH. lia. Qed.
Lemma ns_error A B k : ops_ok A B ->
  Z.abs (256 * total (fun i => sobol_below k (Z.to_nat (A i)) (B i)) - total (fun i => A i * B i)) <= 16 * 1080.
Proof.
  intros H. rewrite <- total_scale. apply total_error. intros i Hi. destruct (H i Hi) as [H1 H2].
  pose proof (below_error k (Z.to_nat (A i)) (B i) ltac:(lia)) as E. rewrite Z2Nat.id in E by lia. exact E.
Qed.
(** The scaled units after a load. *)
Lemma run_bit_uni pre idle A B j : let h := pre ++ mac_row A B :: idle in let t := (S (length pre) + j)%nat in
  rows8 h -> no_loads idle -> (S t < length h)%nat ->
  nth (S t) (outs tmac_uni_scaled tmac_init h) 0 =
  let i := Z.to_nat (lane_of (free_run 8 t)) in b2z ((0 <? Z.of_nat j) && (Z.of_nat j <=? A i) && (free_run 8 t <? B i)).
Proof.
  intros h t Hr Hi Ht. assert (Lh : length h = (S (length pre) + length idle)%nat) by (unfold h; rewrite app_length; cbn [length]; lia).
  rewrite tmac_uni_nth by assumption. cbv zeta. f_equal. unfold h, t. rewrite after_uni; [|exact Hi|rewrite <- sel_lane; apply sel_nat|unfold t in Ht; lia].
  do 2 f_equal. destruct j; reflexivity.
Qed.
Lemma run_bit_bi pre idle A B j : let h := pre ++ mac_row A B :: idle in let t := (S (length pre) + j)%nat in
  rows8 h -> no_loads idle -> (S t < length h)%nat ->
  nth (S t) (outs tmac_bi_scaled tmac_init h) 0 =
  let i := Z.to_nat (lane_of (free_run 8 t)) in b2z (Bool.eqb ((0 <? Z.of_nat j) && (Z.of_nat j <=? A i)) (free_run 8 t <? B i)).
Proof.
  intros h t Hr Hi Ht. assert (Lh : length h = (S (length pre) + length idle)%nat) by (unfold h; rewrite app_length; cbn [length]; lia).
  rewrite tmac_bi_nth by assumption. cbv zeta. f_equal.
  assert (Hs : (Z.to_nat (lane_of (free_run 8 t)) < 16)%nat) by (rewrite <- sel_lane; apply sel_nat).
  unfold prod_bi, running, below. unfold h, t in *. rewrite after_age, after_held_a, after_held_b by (try exact Hi; try exact Hs; lia).
  do 2 f_equal. destruct j; reflexivity.
Qed.
Lemma emitted_1 h : emitted h 1 = 0.
Proof.
  unfold emitted. transitivity (total (fun _ => 0)); [|reflexivity]. apply total_ext. intros i Hi. unfold prod_ones. cbn [seq countb].
  unfold prod_uni, running, age. cbn [firstn]. reflexivity.
Qed.
Lemma ns_first idle A B p : let h := mac_row A B :: idle in rows8 h -> no_loads idle -> ops_ok A B ->
  (2 <= p)%nat -> (p * 256 + 256 <= length h)%nat ->
  ones_from (p * 256) 256 (outs tmac_uni_nonscaled tmac_ns_init h) = total (fun i => sobol_below 2 (Z.to_nat (A i)) (B i)) mod 256.
Proof.
  intros h Hr Hi HAB Hp L. pose proof (ns_load [] idle A B p Hr Hi HAB) as E. cbv zeta in E. cbn [app length] in E.
  unfold h. rewrite E by (try exact L; lia). rewrite emitted_1. reflexivity.
Qed.
Lemma ns_not_cleared idle0 idle A B p : let h := (mac_row A B :: idle0) ++ mac_row (fun _ => 0) (fun _ => 0) :: idle in
  rows8 h -> no_loads idle0 -> no_loads idle -> ops_ok A B -> (256 <= length idle0)%nat ->
  (length idle0 + 260 <= p * 256)%nat -> (p * 256 + 256 <= length h)%nat ->
  ones_from (p * 256) 256 (outs tmac_uni_nonscaled tmac_ns_init h) = total (fun i => sobol_below 2 (Z.to_nat (A i)) (B i)) mod 256.
Proof.
  intros h Hr H0 Hi HAB L0 Hp L. pose proof (ns_load (mac_row A B :: idle0) idle (fun _ => 0) (fun _ => 0) p Hr Hi) as E. cbv zeta in E.
  unfold h. rewrite E by (try exact L; try (cbn [length]; lia); intros i Hi'; lia).
  rewrite emitted_app by reflexivity.
  pose proof (after_emitted [] idle0 A B H0 (S (length idle0))) as F. cbn [app length Nat.add] in F. cbn [length].
  rewrite F by (try lia; intros i Hi'; destruct (HAB i Hi') as [? _]; lia). rewrite emitted_1.
  assert (Z0 : total (fun i => sobol_below (S (length idle0) + 2) (Z.to_nat 0) 0) = 0) by reflexivity. 
  change (S (length idle0) + 2)%nat with (S (length idle0 + 2)) in Z0. cbn [Nat.add]. rewrite Z0. f_equal. lia.
Qed.
Definition hidden_b (i : nat) : Z := 16 * Z.of_nat (i mod 8).
Lemma hidden_table : forallb (fun v => negb (Z.of_nat v <? hidden_b (Z.to_nat (lane_of (Z.of_nat v))))) (seq 0 256) = true.
Proof. vm_compute. reflexivity. Qed.
Lemma scaled_hidden idle A t : let h := mac_row A hidden_b :: idle in rows8 h -> no_loads idle ->
  nth t (outs tmac_uni_scaled tmac_init h) 0 = 0.
Proof.
  intros h Hr Hi. destruct (Nat.lt_ge_cases t (length h)) as [Ht|Ht]; [|apply nth_overflow; rewrite outs_length; exact Ht].
  destruct t as [|t]; [unfold tmac_uni_scaled, tmac_init; rewrite wired_outs; apply mux_first|].
  destruct t as [|j].
  - rewrite tmac_uni_nth by (try exact Hr; lia). unfold prod_uni, running, age. reflexivity.
  - pose proof (run_bit_uni [] idle A hidden_b j Hr Hi Ht) as E. cbv zeta in E. cbn [app length Nat.add] in E. unfold h. rewrite E.
    pose proof (free_run_range 8 (S j) ltac:(lia)) as R. change (p2 8) with 256 in R.
    pose proof (proj1 (forallb_forall _ _) hidden_table (Z.to_nat (free_run 8 (S j))) ltac:(apply in_seq; lia)) as T. cbv beta in T.
    rewrite Z2Nat.id in T by lia. apply negb_true_iff in T. rewrite T, andb_false_r. reflexivity.
Qed.
