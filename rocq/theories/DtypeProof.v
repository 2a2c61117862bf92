(** Proofs about DtypeModel.v. *)
From Coq Require Import Lia ZifyBool.
Require Import Verif.BaseLemmas.
Require Export Verif.DtypeSpec.
Open Scope Z_scope.

Lemma p2_sub1 b : (1 <= b)%nat -> p2 b = 2 * p2 (b - 1).
Proof. intros H. rewrite <- p2_S. f_equal. lia. Qed.
Lemma p2_pow b : 2 ^ Z.of_nat b = p2 b. Proof. reflexivity. Qed.
Lemma p2_pow1 b : (1 <= b)%nat -> 2 ^ (Z.of_nat b - 1) = p2 (b - 1).
Proof. intros H. unfold p2. f_equal. lia. Qed.
Lemma p2_lt a b : (a < b)%nat -> p2 a < p2 b.
Proof. intros H. unfold p2. apply Z.pow_lt_mono_r; lia. Qed.

(** ** Rounding to p significant bits *)

Definition fexp (p : nat) (z : Z) : Z := Z.max 0 (Z.log2 (Z.abs z) + 1 - Z.of_nat p).

(** The rounding to a multiple of 2^e: nearest, ties to an even multiple. *)
Definition rne (e z : Z) : Z :=
  z / 2 ^ e + b2z ((2 * (z mod 2 ^ e) >? 2 ^ e) || ((2 * (z mod 2 ^ e) =? 2 ^ e) && Z.odd (z / 2 ^ e))).

Lemma fl_rne p z : fl p z = rne (fexp p z) z * 2 ^ fexp p z.
Proof. reflexivity. Qed.

Lemma rne_near e z : 0 <= e -> 2 * Z.abs (z - rne e z * 2 ^ e) <= 2 ^ e.
Proof.
  intros He. unfold rne. assert (P : 0 < 2 ^ e) by (apply Z.pow_pos_nonneg; lia).
  pose proof (Z.div_mod z (2 ^ e)) as D. pose proof (Z.mod_pos_bound z (2 ^ e) P) as R.
  set (q := z / 2 ^ e) in *. set (r := z mod 2 ^ e) in *. set (u := 2 ^ e) in *. clearbody q r u.
  assert (D' : z = u * q + r) by (apply D; lia). clear D. subst z.
  destruct ((2 * r >? u) || ((2 * r =? u) && Z.odd q)) eqn:E; cbn [b2z].
  - replace (u * q + r - (q + 1) * u) with (r - u) by ring. lia.
  - replace (u * q + r - (q + 0) * u) with r by ring. lia.
Qed.

Lemma rne_tie e z : 0 <= e -> 2 * Z.abs (z - rne e z * 2 ^ e) = 2 ^ e -> Z.odd (rne e z) = false.
Proof.
  intros He. unfold rne. assert (P : 0 < 2 ^ e) by (apply Z.pow_pos_nonneg; lia).
  pose proof (Z.div_mod z (2 ^ e)) as D. pose proof (Z.mod_pos_bound z (2 ^ e) P) as R.
  set (q := z / 2 ^ e) in *. set (r := z mod 2 ^ e) in *. set (u := 2 ^ e) in *. clearbody q r u.
  assert (D' : z = u * q + r) by (apply D; lia). clear D. subst z.
  destruct ((2 * r >? u) || ((2 * r =? u) && Z.odd q)) eqn:E; cbn [b2z].
  - replace (u * q + r - (q + 1) * u) with (r - u) by ring. intros T.
    assert (O : Z.odd q = true) by (destruct (Z.odd q); [reflexivity|exfalso; lia]).
    rewrite Z.odd_add, O. reflexivity.
  - replace (u * q + r - (q + 0) * u) with r by ring. intros T.
    rewrite Z.add_0_r. destruct (Z.odd q); [exfalso; lia|reflexivity].
Qed.

(** No multiple of 2^e is nearer. *)
Lemma rne_nearest e z k : 0 <= e -> Z.abs (z - rne e z * 2 ^ e) <= Z.abs (z - k * 2 ^ e).
Proof.
  intros He. pose proof (rne_near e z He) as N. assert (P : 0 < 2 ^ e) by (apply Z.pow_pos_nonneg; lia).
  set (m := rne e z) in *. set (u := 2 ^ e) in *. clearbody m u.
  destruct (Z.eq_dec m k) as [->|Hn]; [lia|].
  assert (u <= Z.abs (k * u - m * u)) 
    by (rewrite <- Z.mul_sub_distr_r, Z.abs_mul, (Z.abs_eq u) by lia; assert (1 <= Z.abs (k - m)) by lia; nia). lia.
Qed.

Lemma fexp_pow p z : (1 <= p)%nat -> 0 < fexp p z -> 2 ^ (Z.of_nat p - 1) * 2 ^ fexp p z <= Z.abs z.
Proof.
  intros Hp. unfold fexp. intros He. rewrite <- Z.pow_add_r by lia.
  assert (Hz : 0 < Z.abs z). { destruct (Z.eq_dec z 0) as [->|]; [|lia]. change (Z.log2 (Z.abs 0)) with 0 in He. lia. }
  pose proof (Z.log2_spec _ Hz). etransitivity; [|apply H]. apply Z.pow_le_mono_r; lia.
Qed.
Lemma fexp_top p z : Z.abs z < 2 ^ Z.of_nat p * 2 ^ fexp p z.
Proof.
  unfold fexp. rewrite <- Z.pow_add_r by lia.
  destruct (Z.eq_dec z 0) as [->|Hz]. { apply Z.pow_pos_nonneg; lia. }
  assert (Hz' : 0 < Z.abs z) by lia. pose proof (Z.log2_spec _ Hz') as [_ H]. eapply Z.lt_le_trans; [apply H|].
  apply Z.pow_le_mono_r; lia.
Qed.
Lemma fexp_nonneg p z : 0 <= fexp p z. Proof. unfold fexp. lia. Qed.

Lemma fl_nearest p emax z y : (1 <= p)%nat -> holds (Flt p emax) y -> Z.abs (z - fl p z) <= Z.abs (z - y).
Proof.
  intros Hp (m & e' & He' & Hm & ->). rewrite fl_rne. pose proof (fexp_nonneg p z) as He.
  destruct (Z_le_gt_dec (fexp p z) e') as [L|G].
  - replace (m * 2 ^ e') with (m * 2 ^ (e' - fexp p z) * 2 ^ fexp p z).
    2:{ rewrite <- Z.mul_assoc, <- Z.pow_add_r by lia. do 2 f_equal. lia. }
    apply rne_nearest; lia.
  - assert (B := fexp_pow p z Hp ltac:(lia)).
    assert (Y : Z.abs (m * 2 ^ e') < 2 ^ (Z.of_nat p - 1) * 2 ^ fexp p z).
    { rewrite Z.abs_mul, (Z.abs_eq (2 ^ e')) by (apply Z.pow_nonneg; lia).
      apply Z.lt_le_trans with (2 ^ Z.of_nat p * 2 ^ e').
      - apply Z.mul_lt_mono_pos_r; [apply Z.pow_pos_nonneg; lia|lia].
      - rewrite <- !Z.pow_add_r by lia. apply Z.pow_le_mono_r; lia. }
    set (k := 2 ^ (Z.of_nat p - 1)) in *.
    pose proof (rne_nearest (fexp p z) z k He). pose proof (rne_nearest (fexp p z) z (- k) He). lia.
Qed.

Lemma rne_bound p z : (1 <= p)%nat -> Z.abs (rne (fexp p z) z) <= 2 ^ Z.of_nat p.
Proof.
  intros Hp. pose proof (fexp_nonneg p z) as He. pose proof (fexp_top p z) as T.
  set (k := 2 ^ Z.of_nat p) in *.
  pose proof (rne_nearest _ z k He) as N1. pose proof (rne_nearest _ z (- k) He) as N2.
  assert (P : 0 < 2 ^ fexp p z) by (apply Z.pow_pos_nonneg; lia).
  set (u := 2 ^ fexp p z) in *. set (m := rne (fexp p z) z) in *. clearbody k u m.
  destruct (Z_le_gt_dec (Z.abs m) k); [assumption|exfalso].
  assert (k * u < Z.abs (m * u)) by (rewrite Z.abs_mul, (Z.abs_eq u) by lia; apply Z.mul_lt_mono_pos_r; lia).
  lia.
Qed.

Lemma fl_holds p emax z : (1 <= p)%nat -> holds (Flt p emax) (fl p z).
Proof.
  intros Hp. rewrite fl_rne. pose proof (rne_bound p z Hp) as B. pose proof (fexp_nonneg p z) as He.
  set (m := rne (fexp p z) z) in *. set (e := fexp p z) in *. clearbody m e. cbn [holds].
  destruct (Z.eq_dec (Z.abs m) (2 ^ Z.of_nat p)) as [E|N].
  - exists (Z.sgn m * 2 ^ (Z.of_nat p - 1)), (e + 1). split; [lia|].
    assert (P : 0 < 2 ^ (Z.of_nat p - 1)) by (apply Z.pow_pos_nonneg; lia).
    assert (D : 2 ^ Z.of_nat p = 2 * 2 ^ (Z.of_nat p - 1)) by (rewrite <- Z.pow_succ_r by lia; f_equal; lia).
    split.
    + rewrite Z.abs_mul, (Z.abs_eq (2 ^ (Z.of_nat p - 1))) by lia.
      assert (Z.abs (Z.sgn m) <= 1) by (destruct (Z.sgn_spec m); lia). nia.
    + rewrite Z.pow_add_r by lia. rewrite Z.pow_1_r.
      rewrite <- (Z.abs_sgn m) at 1. rewrite E, D. ring.
  - exists m, e. split; [assumption|]. split; [lia|reflexivity].
Qed.

Lemma fl_exact p emax z : (1 <= p)%nat -> holds (Flt p emax) z -> fl p z = z.
Proof. intros Hp H. pose proof (fl_nearest p emax z z Hp H). lia. Qed.

Lemma fl_small p z : (1 <= p)%nat -> Z.abs z <= p2 p -> fl p z = z.
Proof.
  intros Hp H. apply (fl_exact p 0); [assumption|]. unfold p2 in H.
  destruct (Z.eq_dec (Z.abs z) (2 ^ Z.of_nat p)) as [E|N].
  - exists (Z.sgn z * 2 ^ (Z.of_nat p - 1)), 1.
    assert (P : 0 < 2 ^ (Z.of_nat p - 1)) by (apply Z.pow_pos_nonneg; lia).
    assert (D : 2 ^ Z.of_nat p = 2 * 2 ^ (Z.of_nat p - 1)) by (rewrite <- Z.pow_succ_r by lia; f_equal; lia).
    split; [lia|]. split.
    + rewrite Z.abs_mul, (Z.abs_eq (2 ^ (Z.of_nat p - 1))) by lia.
      assert (Z.abs (Z.sgn z) <= 1) by (destruct (Z.sgn_spec z); lia). nia.
    + rewrite <- (Z.abs_sgn z) at 1. rewrite E, D. ring.
  - exists z, 0. cbn. split; [lia|]. split; lia.
Qed.

Lemma fl_pow p k : (1 <= p)%nat -> fl p (p2 k) = p2 k.
Proof.
  intros Hp. apply (fl_exact p 0); [assumption|]. exists 1, (Z.of_nat k). split; [lia|].
  split; [|unfold p2; ring]. cbn. apply (Z.pow_gt_1 2 (Z.of_nat p)); lia.
Qed.
Lemma fl_npow p k : (1 <= p)%nat -> fl p (- p2 k) = - p2 k.
Proof.
  intros Hp. apply (fl_exact p 0); [assumption|]. exists (-1), (Z.of_nat k). split; [lia|].
  split; [|unfold p2; ring]. cbn. apply (Z.pow_gt_1 2 (Z.of_nat p)); lia.
Qed.

(** 2^k + 1 and 2^k - 1 are not representable beyond the precision: both go to 2^k. *)
Lemma fl_pow_succ p k : (2 <= p)%nat -> (p <= k)%nat -> fl p (p2 k + 1) = p2 k.
Proof.
  intros Hp Hk. pose proof (p2_pos k). unfold fl.
  assert (L : Z.log2 (Z.abs (p2 k + 1)) = Z.of_nat k).
  { rewrite Z.abs_eq by lia. apply Z.log2_unique; [lia|]. rewrite Z.pow_succ_r by lia. fold (p2 k).
    assert (1 < p2 k) by (apply (p2_lt 0); lia). lia. }
  rewrite L, Z.max_r by lia. set (e := Z.of_nat k + 1 - Z.of_nat p).
  assert (He : 1 <= e) by (unfold e; lia).
  assert (P : 2 <= 2 ^ e) by (change 2 with (2 ^ 1) at 1; apply Z.pow_le_mono_r; lia).
  assert (D : p2 k = p2 (p - 1) * 2 ^ e).
  { unfold p2. rewrite <- Z.pow_add_r by lia. f_equal. unfold e. lia. }
  assert (Q : (p2 k + 1) / 2 ^ e = p2 (p - 1)).
  { rewrite D. symmetry. apply Z.div_unique with 1; [lia|ring]. }
  assert (R : (p2 k + 1) mod 2 ^ e = 1).
  { rewrite D. symmetry. apply Z.mod_unique with (p2 (p - 1)); [lia|ring]. }
  rewrite Q, R. replace (2 * 1 >? 2 ^ e) with false by lia.
  assert (O : Z.odd (p2 (p - 1)) = false).
  { rewrite (p2_sub1 (p - 1)) by lia. rewrite Z.odd_mul. reflexivity. }
  rewrite O, andb_false_r. cbn [orb b2z]. rewrite D. ring.
Qed.
Lemma fl_pow_pred p k : (1 <= p)%nat -> (p < k)%nat -> fl p (p2 k - 1) = p2 k.
Proof.
  intros Hp Hk. pose proof (p2_lt 0 k ltac:(lia)) as P1. rewrite p2_0 in P1. unfold fl.
  assert (L : Z.log2 (Z.abs (p2 k - 1)) = Z.of_nat k - 1).
  { rewrite Z.abs_eq by lia. apply Z.log2_unique; [lia|].
    replace (Z.succ (Z.of_nat k - 1)) with (Z.of_nat k) by lia. fold (p2 k).
    rewrite p2_pow1 by lia. rewrite (p2_sub1 k) in * by lia. pose proof (p2_pos (k - 1)). lia. }
  rewrite L, Z.max_r by lia. set (e := Z.of_nat k - 1 + 1 - Z.of_nat p).
  assert (He : 1 <= e) by (unfold e; lia).
  assert (P : 2 <= 2 ^ e) by (change 2 with (2 ^ 1) at 1; apply Z.pow_le_mono_r; lia).
  assert (D : p2 k = p2 p * 2 ^ e).
  { unfold p2. rewrite <- Z.pow_add_r by lia. f_equal. unfold e. lia. }
  assert (Q : (p2 k - 1) / 2 ^ e = p2 p - 1).
  { rewrite D. symmetry. apply Z.div_unique with (2 ^ e - 1); [lia|ring]. }
  assert (R : (p2 k - 1) mod 2 ^ e = 2 ^ e - 1).
  { rewrite D. symmetry. apply Z.mod_unique with (p2 p - 1); [lia|ring]. }
  rewrite Q, R.
  assert (O : Z.odd (p2 p - 1) = true).
  { rewrite (p2_sub1 p) by lia. rewrite Z.odd_sub, Z.odd_mul. reflexivity. }
  rewrite O, andb_true_r. replace ((2 * (2 ^ e - 1) >? 2 ^ e) || (2 * (2 ^ e - 1) =? 2 ^ e)) with true by lia.
  cbn [b2z]. rewrite D. ring.
Qed.
Lemma fl_npow_pred p : (2 <= p)%nat -> fl p (- p2 p - 1) = - p2 p.
Proof.
  intros Hp. pose proof (p2_pos p). unfold fl.
  assert (L : Z.log2 (Z.abs (- p2 p - 1)) = Z.of_nat p).
  { replace (Z.abs (- p2 p - 1)) with (p2 p + 1) by lia. apply Z.log2_unique; [lia|]. rewrite Z.pow_succ_r by lia. fold (p2 p).
    assert (1 < p2 p) by (apply (p2_lt 0); lia). lia. }
  rewrite L, Z.max_r by lia. replace (Z.of_nat p + 1 - Z.of_nat p) with 1 by lia. rewrite Z.pow_1_r.
  rewrite (p2_sub1 p) by lia.
  assert (Q : (- (2 * p2 (p - 1)) - 1) / 2 = - p2 (p - 1) - 1).
  { symmetry. apply Z.div_unique with 1; [lia|ring]. }
  assert (R : (- (2 * p2 (p - 1)) - 1) mod 2 = 1).
  { symmetry. apply Z.mod_unique with (- p2 (p - 1) - 1); [lia|ring]. }
  rewrite Q, R. change (2 * 1 >? 2) with false. change (2 * 1 =? 2) with true. cbn [orb andb].
  assert (O : Z.odd (- p2 (p - 1) - 1) = true).
  { rewrite (p2_sub1 (p - 1)) by lia. rewrite Z.odd_sub, Z.odd_opp, Z.odd_mul. reflexivity. }
  rewrite O. cbn [b2z]. ring.
Qed.

(** ** Integer types *)
Lemma sint_exact b z : (1 <= b)%nat -> - p2 (b - 1) <= z < p2 (b - 1) -> cast (SInt b) z = z.
Proof.
  intros Hb H. unfold cast. rewrite (p2_sub1 b) by lia. rewrite Z.mod_small by lia. lia.
Qed.
Lemma sint_congr b z k : (1 <= b)%nat -> cast (SInt b) (z + k * p2 b) = cast (SInt b) z.
Proof.
  intros Hb. unfold cast. f_equal. replace (z + k * p2 b + p2 (b - 1)) with (z + p2 (b - 1) + k * p2 b) by ring.
  apply Z.mod_add. pose proof (p2_pos b). lia.
Qed.
Lemma sint_top b : (1 <= b)%nat -> cast (SInt b) (p2 (b - 1)) = - p2 (b - 1).
Proof.
  intros Hb. rewrite <- (sint_congr b (p2 (b - 1)) (-1) Hb). rewrite (p2_sub1 b) by lia.
  replace (p2 (b - 1) + -1 * (2 * p2 (b - 1))) with (- p2 (b - 1)) by ring.
  apply sint_exact; [assumption|]. pose proof (p2_pos (b - 1)). lia.
Qed.
Lemma uint_exact b z : 0 <= z < p2 b -> cast (UInt b) z = z.
Proof. intros H. unfold cast. apply Z.mod_small. lia. Qed.
Lemma uint_minus b z : cast (UInt b) (z + cast (UInt b) (-1)) = cast (UInt b) (z - 1).
Proof. unfold cast. rewrite Z.add_mod_idemp_r by (pose proof (p2_pos b); lia). f_equal. Qed.
Lemma uint_top b : cast (UInt b) (p2 b) = 0.
Proof. unfold cast. apply Z_mod_same_full. Qed.

(** ** The specification of the conversion *)
Definition wf_dtype (dt : dtype) : Prop :=
  match dt with SInt b => (3 <= b)%nat | UInt b => (2 <= b)%nat | Flt p _ => (2 <= p)%nat end.
Lemma torch_wf dt : In dt torch_dtypes -> wf_dtype dt.
Proof. cbn [torch_dtypes In]. intros H. repeat (destruct H as [<-|H]; [cbn; lia|]). contradiction. Qed.

Lemma cast_holds dt z : wf_dtype dt -> holds dt (cast dt z).
Proof.
  destruct dt as [b|b|p emax]; cbn [wf_dtype]; intros H.
  - cbn [holds cast]. rewrite p2_pow1 by lia. pose proof (Z.mod_pos_bound (z + p2 (b - 1)) (p2 b) (p2_pos b)).
    rewrite (p2_sub1 b) in * by lia. lia.
  - cbn [holds cast]. apply Z.mod_pos_bound. apply p2_pos.
  - apply fl_holds. lia.
Qed.
Lemma cast_exact dt z : wf_dtype dt -> holds dt z -> cast dt z = z.
Proof.
  destruct dt as [b|b|p emax]; cbn [wf_dtype]; intros H Hz.
  - apply sint_exact; [lia|]. cbn [holds] in Hz. rewrite p2_pow1 in Hz by lia. assumption.
  - apply uint_exact. assumption.
  - apply (fl_exact p emax); [lia|assumption].
Qed.
Lemma sint_wraps b z : (1 <= b)%nat -> exists k, cast (SInt b) z = z + k * 2 ^ Z.of_nat b.
Proof.
  intros Hb. cbn [cast]. exists (- ((z + p2 (b - 1)) / p2 b)). pose proof (p2_pos b).
  fold (p2 b). rewrite Z.mod_eq by lia. ring.
Qed.
Lemma uint_wraps b z : exists k, cast (UInt b) z = z + k * 2 ^ Z.of_nat b.
Proof.
  cbn [cast]. exists (- (z / p2 b)). pose proof (p2_pos b). fold (p2 b). rewrite Z.mod_eq by lia. ring.
Qed.
Lemma flt_nearest p emax z : (2 <= p)%nat ->
  (forall y, holds (Flt p emax) y -> Z.abs (z - cast (Flt p emax) z) <= Z.abs (z - y)) /\
  exists m e, 0 <= e /\ Z.abs m <= 2 ^ Z.of_nat p /\ cast (Flt p emax) z = m * 2 ^ e /\
    2 * Z.abs (z - m * 2 ^ e) <= 2 ^ e /\ (2 * Z.abs (z - m * 2 ^ e) = 2 ^ e -> Z.Even m).
Proof.
  intros Hp. split.
  - intros y Hy. apply (fl_nearest p emax); [lia|assumption].
  - exists (rne (fexp p z) z), (fexp p z). pose proof (fexp_nonneg p z) as He. split; [assumption|].
    split; [apply rne_bound; lia|]. split; [reflexivity|]. split; [apply rne_near; assumption|].
    intros T. apply rne_tie in T; [|assumption]. apply Z.even_spec. rewrite <- Z.negb_odd, T. reflexivity.
Qed.

(** ** Runs *)
Lemma outs_same {S I O} (f g : S -> I -> S * O) (inv : S -> Prop) (ok : I -> Prop) :
  (forall s x, inv s -> ok x -> f s x = g s x /\ inv (fst (g s x))) ->
  forall xs s, inv s -> Forall ok xs -> outs f s xs = outs g s xs.
Proof.
  intros H. induction xs as [|x xs IH]; intros s Hs F; [reflexivity|].
  inversion F; subst. destruct (H s x) as [E V]; [assumption|assumption|].
  rewrite !outs_cons, E, IH; [reflexivity|assumption|assumption].
Qed.
(** The same with states related by a relation. *)
Lemma outs_related {S T I O} (f : S -> I -> S * O) (g : T -> I -> T * O) (R : S -> T -> Prop) (ok : I -> Prop) :
  (forall s t x, R s t -> ok x -> snd (f s x) = snd (g t x) /\ R (fst (f s x)) (fst (g t x))) ->
  forall xs s t, R s t -> Forall ok xs -> outs f s xs = outs g t xs.
Proof.
  intros H. induction xs as [|x xs IH]; intros s t Hs F; [reflexivity|].
  inversion F; subst. destruct (H s t x) as [E V]; [assumption|assumption|].
  rewrite !outs_cons, E, (IH _ (fst (g t x))); [reflexivity|assumption|assumption].
Qed.
Lemma final_up {I O} (f : Z -> I -> Z * O) x s k hi :
  (forall z, s <= z < hi -> fst (f z x) = z + 1) -> s + Z.of_nat k <= hi -> final f s (repeat x k) = s + Z.of_nat k.
Proof.
  revert s. induction k as [|k IH]; intros s H B; [cbn; lia|].
  cbn [repeat]. rewrite final_cons, H by lia. rewrite IH; [lia| |lia]. intros z Hz. apply H. lia.
Qed.
Lemma final_down {I O} (f : Z -> I -> Z * O) x s k lo :
  (forall z, lo < z <= s -> fst (f z x) = z - 1) -> lo <= s - Z.of_nat k -> final f s (repeat x k) = s - Z.of_nat k.
Proof.
  revert s. induction k as [|k IH]; intros s H B; [cbn; lia|].
  cbn [repeat]. rewrite final_cons, H by lia. rewrite IH; [lia| |lia]. intros z Hz. apply H. lia.
Qed.
Lemma outs_last {S I O} (f g : S -> I -> S * O) s t xs x :
  outs f s (xs ++ [x]) = outs g t (xs ++ [x]) -> snd (f (final f s xs) x) = snd (g (final g t xs) x).
Proof. rewrite !outs_app, !outs_cons, !outs_nil. intros E. apply app_inj_tail in E. apply E. Qed.
Lemma bits_repeat x k : bit x -> bits (repeat x k).
Proof. intros H. induction k; cbn; constructor; assumption. Qed.

(** ** Counters within the room of a type *)
Lemma room_exact dt n z : wf_dtype dt -> (1 <= n)%nat -> (n <= room dt)%nat -> -1 <= z <= p2 n -> cast dt z = z.
Proof.
  destruct dt as [b|b|p emax]; cbn [wf_dtype room]; intros W N H B.
  - apply sint_exact; [lia|]. pose proof (p2_le n (b - 2) H). pose proof (p2_lt (b - 2) (b - 1) ltac:(lia)). pose proof (p2_pos (b - 2)). lia.
  - lia.
  - apply fl_small; [lia|]. pose proof (p2_le n p H). pose proof (p2_ge_1 n). lia.
Qed.
Lemma room0_exact dt n z : wf_dtype dt -> (n <= room0 dt)%nat -> 0 <= z <= p2 n -> cast dt z = z.
Proof.
  destruct dt as [b|b|p emax]; cbn [wf_dtype room0]; intros W H B.
  - apply sint_exact; [lia|]. pose proof (p2_le n (b - 2) H). pose proof (p2_lt (b - 2) (b - 1) ltac:(lia)). lia.
  - apply uint_exact. pose proof (p2_le n (b - 1) H). pose proof (p2_lt (b - 1) b ltac:(lia)). lia.
  - apply fl_small; [lia|]. pose proof (p2_le n p H). lia.
Qed.
Lemma cast_1 dt : wf_dtype dt -> cast dt 1 = 1.
Proof.
  intros W. apply cast_exact; [assumption|]. destruct dt as [b|b|p emax]; cbn [wf_dtype] in W; cbn [holds].
  - rewrite p2_pow1 by lia. pose proof (p2_lt 0 (b - 1) ltac:(lia)). rewrite p2_0 in *. lia.
  - fold (p2 b). pose proof (p2_lt 0 b ltac:(lia)). rewrite p2_0 in *. lia.
  - exists 1, 0. split; [lia|]. split; [|reflexivity]. fold (p2 p). pose proof (p2_lt 0 p ltac:(lia)). rewrite p2_0 in *. lia.
Qed.
Lemma cast_0 dt : wf_dtype dt -> cast dt 0 = 0.
Proof.
  intros W. apply cast_exact; [assumption|]. destruct dt as [b|b|p emax]; cbn [wf_dtype] in W; cbn [holds].
  - rewrite p2_pow1 by lia. pose proof (p2_pos (b - 1)). lia.
  - fold (p2 b). pose proof (p2_pos b). lia.
  - exists 0, 0. split; [lia|]. split; [|reflexivity]. fold (p2 p). pose proof (p2_pos p). cbn. lia.
Qed.
Lemma cast_m1 dt : wf_dtype dt -> match dt with UInt _ => True | _ => cast dt (-1) = -1 end.
Proof.
  destruct dt as [b|b|p emax]; intros W; cbn [wf_dtype] in W; [|trivial|].
  - apply sint_exact; [lia|]. pose proof (p2_lt 0 (b - 1) ltac:(lia)). rewrite p2_0 in *. lia.
  - apply fl_small; [lia|]. pose proof (p2_lt 0 p ltac:(lia)). rewrite p2_0 in *. cbn. lia.
Qed.
Lemma room0_pm dt n z v : wf_dtype dt -> (n <= room0 dt)%nat -> v = 1 \/ v = -1 -> 0 <= z + v <= p2 n ->
  cast dt (z + cast dt v) = z + v.
Proof.
  intros W H Hv B. destruct Hv as [->| ->].
  - rewrite cast_1 by assumption. apply (room0_exact dt n); assumption.
  - pose proof (cast_m1 dt W) as M. destruct dt as [b|b|p emax].
    + rewrite M. apply (room0_exact _ n); assumption.
    + rewrite uint_minus. apply (room0_exact _ n); assumption.
    + rewrite M. apply (room0_exact _ n); assumption.
Qed.

(** ** Constants *)
Lemma f32_wf : wf_dtype t_float32. Proof. cbn. lia. Qed.
Lemma const_pow dt k : match dt with Flt p _ => (1 <= p)%nat | SInt b => (1 <= b)%nat /\ (S k < b)%nat | UInt b => (k < b)%nat end ->
  const_dt dt (p2 k) = p2 k.
Proof.
  unfold const_dt, t_float32. intros H. cbn [cast]. fold (cast dt). rewrite fl_pow by lia.
  destruct dt as [b|b|p emax].
  - apply sint_exact; [lia|]. pose proof (p2_lt k (b - 1) ltac:(lia)). pose proof (p2_pos k). lia.
  - apply uint_exact. pose proof (p2_lt k b H). pose proof (p2_pos k). lia.
  - apply fl_pow. assumption.
Qed.

(** ** FSUReLU *)
Lemma lor_bit x y : bit x -> bit y -> Z.lor x y = b2z (negb (x =? 0) || negb (y =? 0)).
Proof. intros [->| ->] [->| ->]; reflexivity. Qed.

Lemma relu_dt_next dt d acc x : bit x ->
  relu_dt_step dt d acc x =
    let o := if acc >=? p2 d then x else 1 in
    (clamp_dt dt 0 (p2 (S d) - 1) (cast dt (acc + cast dt (o * 2 - 1))), o).
Proof.
  intros Hx. unfold relu_dt_step. destruct (acc >=? p2 d); cbn [b2z]; destruct Hx as [->| ->]; reflexivity.
Qed.
Lemma relu_next d acc x : bit x ->
  fsurelu_step d acc x =
    let o := if acc >=? p2 d then x else 1 in (zclamp 0 (p2 (S d) - 1) (acc + (o * 2 - 1)), o).
Proof.
  intros Hx. unfold fsurelu_step. destruct (acc >=? p2 d); cbn [b2z]; destruct Hx as [->| ->]; reflexivity.
Qed.

Lemma relu_init_ok dt d : wf_dtype dt -> dt_range dt (p2 (S d) - 1) -> relu_dt_init dt d = p2 d.
Proof.
  intros W R. apply const_pow. destruct dt as [b|b|p emax]; cbn [dt_range holds wf_dtype] in *.
  - rewrite p2_pow1 in R by lia. split; [lia|].
    destruct (le_lt_dec b (S d)) as [L|G]; [|assumption]. pose proof (p2_le (b - 1) d ltac:(lia)).
    rewrite p2_S in R. pose proof (p2_pos d). lia.
  - fold (p2 b) in R. destruct (le_lt_dec b d) as [L|G]; [|assumption]. pose proof (p2_le b d L).
    rewrite p2_S in R. pose proof (p2_pos d). destruct (Z.eq_dec (p2 d) 1); [|lia].
    pose proof (p2_lt 0 b ltac:(lia)). rewrite p2_0 in *. lia.
  - lia.
Qed.

Lemma relu_dt_exact dt d xs : wf_dtype dt -> (S d <= room0 dt)%nat -> bits xs ->
  outs (relu_dt_step dt d) (relu_dt_init dt d) xs = outs (fsurelu_step d) (fsurelu_init d) xs.
Proof.
  intros W H F. pose proof (p2_pos d) as P. pose proof (p2_S d) as PS.
  assert (I0 : relu_dt_init dt d = p2 d).
  { unfold relu_dt_init, const_dt. cbn [t_float32 cast]. rewrite fl_pow by lia.
    apply (room0_exact dt (S d)); [assumption|assumption|lia]. }
  rewrite I0. change (fsurelu_init d) with (p2 d).
  apply (outs_same _ _ (fun s => p2 d - 1 <= s <= p2 (S d) - 1) bit); [|lia|assumption].
  intros s x Hs Hx. rewrite relu_dt_next, relu_next by assumption. cbv zeta.
  assert (C : forall v, clamp_dt dt 0 (p2 (S d) - 1) v = zclamp 0 (p2 (S d) - 1) v).
  { intros v. unfold clamp_dt. rewrite cast_0 by assumption.
    rewrite (room0_exact dt (S d) (p2 (S d) - 1)); [reflexivity|assumption|assumption|lia]. }
  rewrite C. set (o := if s >=? p2 d then x else 1).
  assert (Ho : (o = 0 /\ p2 d <= s) \/ o = 1).
  { unfold o. destruct (s >=? p2 d) eqn:E; [|right; reflexivity]. destruct Hx as [->| ->]; [left|right]; lia. }
  rewrite (room0_pm dt (S d)); [|assumption|assumption|lia|lia].
  split; [reflexivity|]. cbn [fst]. unfold zclamp. lia.
Qed.

(** The counter of 2^(d+1) values when the type has exactly those: one step past the top wraps to 0. *)
Definition wraps_at (dt : dtype) (n : nat) : Prop :=
  match dt with SInt b => (1 <= b /\ n = b - 1)%nat | UInt b => n = b | Flt _ _ => False end.
Lemma wraps_exact dt n z : wf_dtype dt -> wraps_at dt n -> 0 <= z < p2 n -> cast dt z = z.
Proof.
  destruct dt as [b|b|p emax]; cbn [wraps_at wf_dtype]; intros W H B; [| |contradiction].
  - apply sint_exact; [lia|]. destruct H as [_ ->]. lia.
  - apply uint_exact. subst n. lia.
Qed.
Lemma wraps_top dt n : wf_dtype dt -> wraps_at dt n -> cast dt (p2 n) <= 0.
Proof.
  destruct dt as [b|b|p emax]; cbn [wraps_at wf_dtype]; intros W H; [| |contradiction].
  - destruct H as [_ ->]. rewrite sint_top by lia. pose proof (p2_pos (b - 1)). lia.
  - subst n. rewrite uint_top. lia.
Qed.

Lemma relu_dt_up dt d acc x : wf_dtype dt -> wraps_at dt (S d) -> bit x ->
  0 <= acc < p2 (S d) - 1 -> (acc >= p2 d -> x = 1) -> relu_dt_step dt d acc x = (acc + 1, 1).
Proof.
  intros W H Hx B HX. rewrite relu_dt_next by assumption. cbv zeta.
  assert (O : (if acc >=? p2 d then x else 1) = 1) by (destruct (acc >=? p2 d) eqn:E; [apply HX; lia|reflexivity]).
  rewrite O. change (1 * 2 - 1) with 1. rewrite cast_1 by assumption.
  unfold clamp_dt. rewrite cast_0 by assumption. rewrite !(wraps_exact dt (S d)) by (assumption || lia).
  f_equal. unfold zclamp. lia.
Qed.
Lemma relu_dt_wrap dt d : wf_dtype dt -> wraps_at dt (S d) ->
  final (relu_dt_step dt d) (p2 d) (repeat 1 (2 ^ d)) = 0.
Proof.
  intros W H. pose proof (p2_pos d) as P. pose proof (p2_S d) as PS. pose proof (p2_nat d) as N.
  replace (2 ^ d)%nat with ((2 ^ d - 1) + 1)%nat by lia. rewrite repeat_app, final_app.
  rewrite (final_up _ 1 (p2 d) (2 ^ d - 1) (p2 (S d) - 1)).
  - cbn [repeat]. rewrite final_cons, final_nil. rewrite relu_dt_next by (right; reflexivity). cbv zeta. cbn [fst].
    replace (p2 d + Z.of_nat (2 ^ d - 1)) with (p2 (S d) - 1) by lia.
    replace (if p2 (S d) - 1 >=? p2 d then 1 else 1) with 1 by (destruct (p2 (S d) - 1 >=? p2 d); reflexivity).
    change (1 * 2 - 1) with 1. rewrite cast_1 by assumption. replace (p2 (S d) - 1 + 1) with (p2 (S d)) by lia.
    unfold clamp_dt. rewrite cast_0 by assumption. rewrite (wraps_exact dt (S d)) by (assumption || lia).
    pose proof (wraps_top dt (S d) W H). unfold zclamp. lia.
  - intros z Hz. rewrite relu_dt_up; [reflexivity|assumption|assumption|right; reflexivity|lia|reflexivity].
  - lia.
Qed.
Lemma relu_dt_blind dt d xs : wf_dtype dt -> wraps_at dt (S d) -> bits xs -> zlen xs <= p2 d ->
  outs (relu_dt_step dt d) 0 xs = repeat 1 (length xs).
Proof.
  intros W H F L. pose proof (p2_pos d) as P. pose proof (p2_S d) as PS. unfold zlen in L.
  assert (G : forall ys s, bits ys -> 0 <= s -> s + Z.of_nat (length ys) <= p2 d ->
              outs (relu_dt_step dt d) s ys = repeat 1 (length ys)).
  { induction ys as [|y ys IH]; intros s Fy Hs B; [reflexivity|]. inversion Fy; subst.
    cbn [length] in B. rewrite outs_cons, relu_dt_up; [|assumption|assumption|assumption|lia|lia].
    cbn [fst snd length repeat]. f_equal. apply IH; [assumption|lia|lia]. }
  apply G; [assumption|lia|lia].
Qed.

(** A float type one bit short: FSUReLU of depth 1. *)
Lemma relu_dt_half p emax d xs : (2 <= p)%nat -> d = p -> bits xs ->
  outs (relu_dt_step (Flt p emax) d) (relu_dt_init (Flt p emax) d) xs = outs (fsurelu_step 0) (fsurelu_init 0) xs.
Proof.
  intros Hp -> F. pose proof (p2_lt 0 p ltac:(lia)) as P. rewrite p2_0 in P. pose proof (p2_S p) as PS.
  assert (I0 : relu_dt_init (Flt p emax) p = p2 p) by (apply const_pow; lia). rewrite I0.
  change (fsurelu_init 0) with 1.
  apply (outs_related _ _ (fun s t => s = p2 p - 1 + t /\ 0 <= t <= 1) bit); [|lia|assumption].
  intros s t x [-> Ht] Hx. rewrite relu_dt_next, relu_next by assumption. cbv zeta. rewrite p2_0.
  replace (p2 p - 1 + t >=? p2 p) with (t >=? 1) by lia. set (o := if t >=? 1 then x else 1).
  assert (Ho : (o = 0 /\ t = 1) \/ o = 1).
  { unfold o. destruct (t >=? 1) eqn:E; [|right; reflexivity]. destruct Hx as [->| ->]; [left|right]; lia. }
  split; [reflexivity|]. cbn [fst]. unfold clamp_dt. change (p2 1 - 1) with 1.
  assert (W : wf_dtype (Flt p emax)) by exact Hp. rewrite cast_0 by assumption.
  assert (T : cast (Flt p emax) (p2 (S p) - 1) = p2 (S p)) by (apply fl_pow_pred; lia). rewrite T.
  destruct Ho as [[-> ->]| ->].
  - pose proof (cast_m1 _ W) as M. cbv beta iota in M. change (0 * 2 - 1) with (-1). rewrite M.
    replace (p2 p - 1 + 1 + -1) with (p2 p - 1) by lia.
    replace (cast (Flt p emax) (p2 p - 1)) with (p2 p - 1) by (symmetry; apply fl_small; lia).
    unfold zclamp. lia.
  - change (1 * 2 - 1) with 1. rewrite cast_1 by assumption.
    assert (V : cast (Flt p emax) (p2 p - 1 + t + 1) = p2 p).
    { destruct (Z.eq_dec t 1) as [->|]; [|replace t with 0 by lia].
      - replace (p2 p - 1 + 1 + 1) with (p2 p + 1) by lia. apply fl_pow_succ; lia.
      - replace (p2 p - 1 + 0 + 1) with (p2 p) by lia. apply fl_pow; lia. }
    rewrite V. unfold zclamp. lia.
Qed.

(** Two or more bits short: the identity. *)
Lemma relu_dt_deep p emax d xs : (2 <= p)%nat -> (p < d)%nat -> bits xs ->
  outs (relu_dt_step (Flt p emax) d) (relu_dt_init (Flt p emax) d) xs = xs.
Proof.
  intros Hp Hd F. pose proof (p2_pos d) as P. pose proof (p2_S d) as PS.
  assert (I0 : relu_dt_init (Flt p emax) d = p2 d) by (apply const_pow; lia). rewrite I0.
  assert (W : wf_dtype (Flt p emax)) by exact Hp.
  induction F as [|x xs Hx F IH]; [reflexivity|]. rewrite outs_cons, relu_dt_next by assumption. cbv zeta. cbn [fst snd].
  replace (p2 d >=? p2 d) with true by lia.
  unfold clamp_dt. rewrite cast_0 by assumption.
  assert (T : cast (Flt p emax) (p2 (S d) - 1) = p2 (S d)) by (apply fl_pow_pred; lia). rewrite T.
  assert (V : cast (Flt p emax) (p2 d + cast (Flt p emax) (x * 2 - 1)) = p2 d).
  { destruct Hx as [->| ->].
    - pose proof (cast_m1 _ W) as M. cbv beta iota in M. change (0 * 2 - 1) with (-1). rewrite M. apply fl_pow_pred; lia.
    - change (1 * 2 - 1) with 1. rewrite cast_1 by assumption. apply fl_pow_succ; lia. }
  rewrite V. replace (zclamp 0 (p2 (S d)) (p2 d)) with (p2 d) by (unfold zclamp; lia). rewrite IH. reflexivity.
Qed.

Lemma relu_dt_iff dt d : In dt torch_dtypes -> dt_range dt (p2 (S d) - 1) ->
  (forall xs, bits xs -> outs (relu_dt_step dt d) (relu_dt_init dt d) xs = outs (fsurelu_step d) (fsurelu_init d) xs) <->
  (S d <= room0 dt)%nat.
Proof.
  intros T R. pose proof (torch_wf dt T) as W. split.
  2:{ intros H xs F. apply relu_dt_exact; assumption. }
  intros E. destruct (le_lt_dec (S d) (room0 dt)) as [L|G]; [assumption|exfalso].
  pose proof (p2_pos d) as P. pose proof (p2_S d) as PS. pose proof (p2_nat d) as N.
  pose proof (relu_init_ok dt d W R) as I0.
  assert (WR : wraps_at dt (S d) -> False).
  { intros A. specialize (E (repeat 1 (2 ^ d) ++ [0])).
    assert (B : bits (repeat 1 (2 ^ d) ++ [0])).
    { apply Forall_app. split; [apply bits_repeat; right; reflexivity|]. repeat constructor. }
    specialize (E B). apply outs_last in E. rewrite I0, relu_dt_wrap in E by assumption.
    change (fsurelu_init d) with (p2 d) in E.
    rewrite relu_dt_next, relu_next in E by (left; reflexivity). cbv zeta in E. cbn [snd] in E.
    replace (2 ^ d)%nat with ((2 ^ d - 1) + 1)%nat in E by lia. rewrite repeat_app, final_app in E.
    rewrite (final_up (fsurelu_step d) 1 (p2 d) (2 ^ d - 1) (p2 (S d) - 1)) in E.
    - cbn [repeat] in E. rewrite final_cons, final_nil in E.
      rewrite relu_next in E by (right; reflexivity). cbv zeta in E. cbn [fst] in E.
      replace (p2 d + Z.of_nat (2 ^ d - 1)) with (p2 (S d) - 1) in E by lia.
      replace (if p2 (S d) - 1 >=? p2 d then 1 else 1) with 1 in E by (destruct (p2 (S d) - 1 >=? p2 d); reflexivity).
      replace (zclamp 0 (p2 (S d) - 1) (p2 (S d) - 1 + (1 * 2 - 1))) with (p2 (S d) - 1) in E by (unfold zclamp; lia).
      replace (0 >=? p2 d) with false in E by lia. replace (p2 (S d) - 1 >=? p2 d) with true in E by lia. discriminate E.
    - intros z Hz. rewrite relu_next by (right; reflexivity). cbv zeta. cbn [fst].
      replace (if z >=? p2 d then 1 else 1) with 1 by (destruct (z >=? p2 d); reflexivity). unfold zclamp. lia.
    - lia. }
  destruct dt as [b|b|p emax]; cbn [room0 dt_range holds wf_dtype] in *.
  - apply WR. cbn [wraps_at]. rewrite p2_pow1 in R by lia. split; [lia|].
    destruct (le_lt_dec (S d) (b - 1)) as [L1|G1]; [lia|]. pose proof (p2_lt (b - 1) (S d) G1). lia.
  - apply WR. cbn [wraps_at]. fold (p2 b) in R.
    destruct (le_lt_dec (S d) b) as [L1|G1]; [lia|]. pose proof (p2_lt b (S d) G1). lia.
  - destruct (le_lt_dec d p) as [L1|G1].
    + assert (D : d = p) by lia. assert (B : bits [1; 1; 0; 0]) by (repeat constructor; (left; reflexivity) || (right; reflexivity)).
      specialize (E _ B). rewrite relu_dt_half in E by assumption. subst d.
      pose proof (p2_le 2 p W) as P4. change (p2 2) with 4 in P4. change (fsurelu_init p) with (p2 p) in E.
      assert (X : outs (fsurelu_step p) (p2 p) [1; 1; 0; 0] = [1; 1; 0; 0]).
      { assert (Y : forall s x, bit x -> p2 p <= s <= p2 p + 2 -> p2 p <= s + (x * 2 - 1) <= p2 p + 2 ->
                    fsurelu_step p s x = (s + (x * 2 - 1), x)).
        { intros s x Hx B1 B2. rewrite relu_next by assumption. cbv zeta. replace (s >=? p2 p) with true by lia.
          f_equal. unfold zclamp. lia. }
        assert (b0 : bit 0) by (left; reflexivity). assert (b1 : bit 1) by (right; reflexivity).
        rewrite !outs_cons, outs_nil.
        rewrite (Y (p2 p) 1) by (assumption || lia). cbn [fst snd].
        rewrite (Y (p2 p + (1 * 2 - 1)) 1) by (assumption || lia). cbn [fst snd].
        rewrite (Y (p2 p + (1 * 2 - 1) + (1 * 2 - 1)) 0) by (assumption || lia). cbn [fst snd].
        rewrite (Y (p2 p + (1 * 2 - 1) + (1 * 2 - 1) + (0 * 2 - 1)) 0) by (assumption || lia). reflexivity. }
      rewrite X in E. vm_compute in E. discriminate E.
    + assert (B : bits [0; 0]) by (repeat constructor).
      specialize (E _ B). rewrite relu_dt_deep in E by assumption. change (fsurelu_init d) with (p2 d) in E.
      rewrite !outs_cons, outs_nil in E. rewrite relu_next in E by (left; reflexivity). cbv zeta in E. cbn [fst snd] in E.
      replace (p2 d >=? p2 d) with true in E by lia.
      replace (zclamp 0 (p2 (S d) - 1) (p2 d + (0 * 2 - 1))) with (p2 d - 1) in E by (unfold zclamp; lia).
      rewrite relu_next in E by (left; reflexivity). cbv zeta in E. cbn [fst snd] in E.
      replace (p2 d - 1 >=? p2 d) with false in E by lia. discriminate E.
Qed.

Lemma relu_dt_signed b d xs : In (SInt b) torch_dtypes -> S d = (b - 1)%nat -> bits xs -> zlen xs <= p2 d ->
  final (relu_dt_step (SInt b) d) (p2 d) (repeat 1 (2 ^ d)) = 0 /\
  outs (relu_dt_step (SInt b) d) 0 xs = repeat 1 (length xs).
Proof.
  intros T E F L. pose proof (torch_wf _ T) as W. assert (WR : wraps_at (SInt b) (S d)) by (cbn [wraps_at]; lia).
  split; [apply relu_dt_wrap; assumption|apply relu_dt_blind; assumption].
Qed.
Lemma relu_dt_float p emax d xs : In (Flt p emax) torch_dtypes -> bits xs -> (p <= d)%nat ->
  outs (relu_dt_step (Flt p emax) d) (relu_dt_init (Flt p emax) d) xs =
  if (d =? p)%nat then outs (fsurelu_step 0) (fsurelu_init 0) xs else xs.
Proof.
  intros T F L. pose proof (torch_wf _ T) as W. cbn [wf_dtype] in W. destruct (Nat.eqb_spec d p) as [E|E].
  - apply relu_dt_half; assumption.
  - apply relu_dt_deep; [assumption|lia|assumption].
Qed.
Lemma dt_conversion dt z : In dt torch_dtypes ->
  holds dt (cast dt z) /\ (holds dt z -> cast dt z = z) /\
  match dt with
  | SInt b | UInt b => exists k, cast dt z = z + k * 2 ^ Z.of_nat b
  | Flt p emax =>
      (forall y, holds dt y -> Z.abs (z - cast dt z) <= Z.abs (z - y)) /\
      exists m e, 0 <= e /\ Z.abs m <= 2 ^ Z.of_nat p /\ cast dt z = m * 2 ^ e /\
        2 * Z.abs (z - m * 2 ^ e) <= 2 ^ e /\ (2 * Z.abs (z - m * 2 ^ e) = 2 ^ e -> Z.Even m)
  end.
Proof.
  intros T. pose proof (torch_wf _ T) as W. split; [apply cast_holds; assumption|]. split; [apply cast_exact; assumption|].
  destruct dt as [b|b|p emax]; cbn [wf_dtype] in W.
  - apply sint_wraps. lia.
  - apply uint_wraps.
  - apply flt_nearest. lia.
Qed.

(** The types by name. *)
Lemma cast_iff dt z : In dt torch_dtypes -> cast dt z = z <-> holds dt z.
Proof.
  intros T. apply torch_wf in T. split; [|apply cast_exact, T]. intros E. rewrite <- E. apply cast_holds, T.
Qed.
Lemma dt_types :
  (forall dt, In dt torch_dtypes <-> dt = t_uint8 \/ dt = t_int8 \/ dt = t_int16 \/ dt = t_int32 \/ dt = t_int64 \/
     dt = t_float16 \/ dt = t_bfloat16 \/ dt = t_float32 \/ dt = t_float64) /\
  (forall z, cast t_uint8 z = z <-> 0 <= z <= 255) /\ (forall z, cast t_int8 z = z <-> -128 <= z <= 127) /\
  (forall z, cast t_int16 z = z <-> -32768 <= z <= 32767) /\ (forall z, cast t_int32 z = z <-> -2147483648 <= z <= 2147483647) /\
  (forall z, cast t_int64 z = z <-> -9223372036854775808 <= z <= 9223372036854775807) /\
  (forall z, Z.abs z <= 2048 -> cast t_float16 z = z) /\ cast t_float16 2049 = 2048 /\
  (forall z, Z.abs z <= 256 -> cast t_bfloat16 z = z) /\ cast t_bfloat16 257 = 256 /\
  (forall z, Z.abs z <= 16777216 -> cast t_float32 z = z) /\ cast t_float32 16777217 = 16777216 /\
  (forall z, Z.abs z <= 9007199254740992 -> cast t_float64 z = z) /\ cast t_float64 9007199254740993 = 9007199254740992 /\
  (forall z, dt_range t_float16 z <-> Z.abs z <= 2 ^ 15) /\ (forall z, dt_range t_bfloat16 z <-> Z.abs z <= 2 ^ 127) /\
  (forall z, dt_range t_float32 z <-> Z.abs z <= 2 ^ 127) /\ (forall z, dt_range t_float64 z <-> Z.abs z <= 2 ^ 1023).
Proof.
  split; [intros dt; unfold torch_dtypes; cbn [In]; intuition congruence|].
  do 5 (split; [intros z; rewrite cast_iff by (cbn; tauto); cbn [holds t_uint8 t_int8 t_int16 t_int32 t_int64]; lia|]).
  split; [intros z Hz; apply (fl_small 11); [lia|exact Hz]|]. split; [reflexivity|].
  split; [intros z Hz; apply (fl_small 8); [lia|exact Hz]|]. split; [reflexivity|].
  split; [intros z Hz; apply (fl_small 24); [lia|exact Hz]|]. split; [reflexivity|].
  split; [intros z Hz; apply (fl_small 53); [lia|exact Hz]|]. split; [reflexivity|].
  repeat split; intros H; exact H.
Qed.
