(** General lemmas about Base.v and Spec.v. *)
From Coq Require Export Lia Lqa.
From Coq Require Export ZifyBool ZifyNat.
Require Export Verif.Base Verif.Spec.
Open Scope Z_scope.

(** ** Runs *)
Section RunLemmas.
  Context {S I O : Type}.
  Variable step : S -> I -> S * O.

  Lemma run_nil s : run step s [] = (s, []).
  Proof. reflexivity. Qed.

  Lemma run_cons s x r :
    run step s (x :: r) =
    (fst (run step (fst (step s x)) r), snd (step s x) :: snd (run step (fst (step s x)) r)).
  Proof.
    cbn [run]. destruct (step s x) as [s1 o]. cbn [fst snd].
    destruct (run step s1 r) as [s2 os]. reflexivity.
  Qed.

  Lemma final_nil s : final step s [] = s. Proof. reflexivity. Qed.
  Lemma outs_nil s : outs step s [] = []. Proof. reflexivity. Qed.

  Lemma final_cons s x r : final step s (x :: r) = final step (fst (step s x)) r.
  Proof. unfold final. rewrite run_cons. reflexivity. Qed.

  Lemma outs_cons s x r : outs step s (x :: r) = snd (step s x) :: outs step (fst (step s x)) r.
  Proof. unfold outs. rewrite run_cons. reflexivity. Qed.

  Lemma final_app s xs ys : final step s (xs ++ ys) = final step (final step s xs) ys.
  Proof.
    revert s; induction xs as [|x xs IH]; intros s; cbn [app]; [reflexivity|].
    rewrite !final_cons. apply IH.
  Qed.

  Lemma outs_app s xs ys : outs step s (xs ++ ys) = outs step s xs ++ outs step (final step s xs) ys.
  Proof.
    revert s; induction xs as [|x xs IH]; intros s; cbn [app]; [reflexivity|].
    rewrite !outs_cons, final_cons, IH. reflexivity.
  Qed.

  Lemma final_snoc s xs x : final step s (xs ++ [x]) = fst (step (final step s xs) x).
  Proof. rewrite final_app, final_cons, final_nil. reflexivity. Qed.

  Lemma outs_snoc s xs x : outs step s (xs ++ [x]) = outs step s xs ++ [snd (step (final step s xs) x)].
  Proof. rewrite outs_app, outs_cons, outs_nil. reflexivity. Qed.

  Lemma outs_length s xs : length (outs step s xs) = length xs.
  Proof.
    revert s; induction xs as [|x xs IH]; intros s; [reflexivity|].
    rewrite outs_cons. cbn [length]. rewrite IH. reflexivity.
  Qed.

  (** Outputs of a prefix are the prefix of the outputs. *)
  Lemma outs_firstn s xs k : outs step s (firstn k xs) = firstn k (outs step s xs).
  Proof.
    revert s k; induction xs as [|x xs IH]; intros s k.
    - destruct k; reflexivity.
    - destruct k as [|k]; [reflexivity|]. cbn [firstn].
      rewrite !outs_cons. cbn [firstn]. rewrite IH. reflexivity.
  Qed.
End RunLemmas.

Section RunRLemmas.
  Context {S I O : Type}.
  Variable step : S -> I -> result (S * O).

  Lemma run_r_app s xs ys :
    run_r step s (xs ++ ys) =
    match run_r step s xs with
    | Err e => Err e
    | Ok (s1, o1) => match run_r step s1 ys with
                     | Err e => Err e
                     | Ok (s2, o2) => Ok (s2, o1 ++ o2)
                     end
    end.
  Proof.
    revert s; induction xs as [|x xs IH]; intros s; cbn [app run_r].
    - destruct (run_r step s ys) as [[s2 o2]|e]; reflexivity.
    - destruct (step s x) as [[s1 o]|e]; [|reflexivity].
      rewrite IH. destruct (run_r step s1 xs) as [[s2 o2]|e]; [|reflexivity].
      destruct (run_r step s2 ys) as [[s3 o3]|e]; reflexivity.
  Qed.

  Lemma run_r_snoc s xs x :
    run_r step s (xs ++ [x]) =
    match run_r step s xs with
    | Err e => Err e
    | Ok (s1, o1) => match step s1 x with
                     | Err e => Err e
                     | Ok (s2, o) => Ok (s2, o1 ++ [o])
                     end
    end.
  Proof.
    rewrite run_r_app. destruct (run_r step s xs) as [[s1 o1]|e]; [|reflexivity].
    cbn [run_r]. destruct (step s1 x) as [[s2 o]|e]; reflexivity.
  Qed.

  Lemma run_r_length s xs s' os : run_r step s xs = Ok (s', os) -> length os = length xs.
  Proof.
    revert s s' os; induction xs as [|x xs IH]; intros s s' os H; cbn [run_r] in H.
    - injection H as <- <-. reflexivity.
    - destruct (step s x) as [[s1 o]|e]; [|discriminate].
      destruct (run_r step s1 xs) as [[s2 os2]|e] eqn:E; [|discriminate].
      injection H as <- <-. cbn [length]. f_equal. eapply IH. exact E.
  Qed.
End RunRLemmas.

(** ** Counting *)
Lemma countb_app {A} (f : A -> bool) l1 l2 : countb f (l1 ++ l2) = countb f l1 + countb f l2.
Proof. induction l1 as [|x l IH]; cbn [app countb]; lia. Qed.

Lemma countb_nonneg {A} (f : A -> bool) l : 0 <= countb f l.
Proof. induction l as [|x l IH]; cbn [countb]; [lia|destruct (f x); lia]. Qed.

Lemma countb_le_len {A} (f : A -> bool) l : countb f l <= zlen l.
Proof.
  unfold zlen. induction l as [|x l IH]; cbn [countb length]; [lia|destruct (f x); lia].
Qed.

Lemma countb_ext {A} (f g : A -> bool) l : (forall x, In x l -> f x = g x) -> countb f l = countb g l.
Proof.
  induction l as [|x l IH]; intros H; [reflexivity|]. cbn [countb].
  rewrite (H x) by (left; reflexivity). rewrite IH; [reflexivity|].
  intros y Hy. apply H. right. exact Hy.
Qed.

Lemma countb_map {A B} (f : B -> bool) (g : A -> B) l : countb f (map g l) = countb (fun x => f (g x)) l.
Proof. induction l as [|x l IH]; cbn [map countb]; congruence. Qed.

Lemma countb_perm {A} (f : A -> bool) l1 l2 : Permutation l1 l2 -> countb f l1 = countb f l2.
Proof. induction 1; cbn [countb]; lia. Qed.

Lemma countb_negb {A} (f : A -> bool) l : countb (fun x => negb (f x)) l = zlen l - countb f l.
Proof.
  unfold zlen. induction l as [|x l IH]; cbn [countb length]; [lia|].
  destruct (f x); cbn [negb]; lia.
Qed.

Lemma countb_mono {A} (f g : A -> bool) l :
  (forall x, In x l -> f x = true -> g x = true) -> countb f l <= countb g l.
Proof.
  induction l as [|x l IH]; intros H; cbn [countb]; [lia|].
  specialize (IH (fun y Hy => H y (or_intror Hy))).
  pose proof (H x (or_introl eq_refl)) as Hx.
  destruct (f x); destruct (g x); lia.
Qed.

Lemma countb_true {A} (f : A -> bool) l : (forall x, In x l -> f x = true) -> countb f l = zlen l.
Proof.
  intros H. unfold zlen. induction l as [|x l IH]; cbn [countb length]; [reflexivity|].
  rewrite H by (left; reflexivity). rewrite IH; [lia|]. intros y Hy; apply H; right; exact Hy.
Qed.

Lemma countb_false {A} (f : A -> bool) l : (forall x, In x l -> f x = false) -> countb f l = 0.
Proof.
  intros H. induction l as [|x l IH]; cbn [countb]; [reflexivity|].
  rewrite H by (left; reflexivity). rewrite IH; [lia|]. intros y Hy; apply H; right; exact Hy.
Qed.

Lemma countb_rev {A} (f : A -> bool) l : countb f (rev l) = countb f l.
Proof. apply countb_perm. apply Permutation_sym, Permutation_rev. Qed.

Lemma countb_seq_shift f a n : countb f (seq (S a) n) = countb (fun k => f (S k)) (seq a n).
Proof.
  revert a; induction n as [|n IH]; intros a; cbn [seq countb]; [reflexivity|].
  rewrite IH. reflexivity.
Qed.

Lemma countb_seq_offset f a n : countb f (seq a n) = countb (fun k => f (a + k)%nat) (seq 0 n).
Proof.
  revert f; induction a as [|a IH]; intros f.
  - apply countb_ext. reflexivity.
  - rewrite countb_seq_shift, IH. apply countb_ext. intros; f_equal; lia.
Qed.

Lemma zsum_app l1 l2 : zsum (l1 ++ l2) = zsum l1 + zsum l2.
Proof. induction l1 as [|x l IH]; cbn [app zsum]; lia. Qed.

Lemma ones_app l1 l2 : ones (l1 ++ l2) = ones l1 + ones l2.
Proof. apply countb_app. Qed.
Lemma zeros_app l1 l2 : zeros (l1 ++ l2) = zeros l1 + zeros l2.
Proof. apply countb_app. Qed.
Lemma walk_app l1 l2 : walk (l1 ++ l2) = walk l1 + walk l2.
Proof. unfold walk. rewrite ones_app, zeros_app. lia. Qed.
Lemma ones_cons x l : ones (x :: l) = (if 1 =? x then 1 else 0) + ones l.
Proof. reflexivity. Qed.
Lemma zeros_cons x l : zeros (x :: l) = (if 0 =? x then 1 else 0) + zeros l.
Proof. reflexivity. Qed.

Lemma ones_nonneg l : 0 <= ones l. Proof. apply countb_nonneg. Qed.
Lemma zeros_nonneg l : 0 <= zeros l. Proof. apply countb_nonneg. Qed.

Lemma ones_zeros l : bits l -> ones l + zeros l = zlen l.
Proof.
  unfold zlen. induction 1 as [|x l Hx Hl IH]; [reflexivity|].
  rewrite ones_cons, zeros_cons. cbn [length].
  destruct Hx as [-> | ->]; cbn [Z.eqb Pos.eqb]; lia.
Qed.

Lemma zsum_ones l : bits l -> zsum l = ones l.
Proof.
  induction 1 as [|x l Hx Hl IH]; [reflexivity|].
  rewrite ones_cons. cbn [zsum]. destruct Hx as [-> | ->]; cbn [Z.eqb Pos.eqb]; lia.
Qed.

Lemma ones_bit x : bit x -> ones [x] = x.
Proof. intros [-> | ->]; reflexivity. Qed.
Lemma walk_bit x : bit x -> walk [x] = 2 * x - 1.
Proof. intros [-> | ->]; reflexivity. Qed.
Lemma ones_snoc l x : bit x -> ones (l ++ [x]) = ones l + x.
Proof. intros H. rewrite ones_app, ones_bit by exact H. reflexivity. Qed.
Lemma zeros_snoc l x : bit x -> zeros (l ++ [x]) = zeros l + (1 - x).
Proof. intros [-> | ->]; rewrite zeros_app; reflexivity. Qed.
Lemma walk_snoc l x : bit x -> walk (l ++ [x]) = walk l + (2 * x - 1).
Proof. intros H. rewrite walk_app, walk_bit by exact H. reflexivity. Qed.

Lemma zlen_app {A} (l1 l2 : list A) : zlen (l1 ++ l2) = zlen l1 + zlen l2.
Proof. unfold zlen. rewrite app_length. lia. Qed.
Lemma zlen_snoc {A} (l : list A) x : zlen (l ++ [x]) = zlen l + 1.
Proof. rewrite zlen_app. reflexivity. Qed.
Lemma zlen_nonneg {A} (l : list A) : 0 <= zlen l.
Proof. unfold zlen; lia. Qed.

Lemma bits_app l1 l2 : bits (l1 ++ l2) <-> bits l1 /\ bits l2.
Proof. unfold bits. rewrite Forall_app. reflexivity. Qed.
Lemma bits_snoc l x : bits (l ++ [x]) <-> bits l /\ bit x.
Proof.
  rewrite bits_app. split; intros [H1 H2]; split; try assumption.
  - inversion H2; assumption.
  - constructor; [assumption|constructor].
Qed.
Lemma bits_firstn l k : bits l -> bits (firstn k l).
Proof. intros H. rewrite <- (firstn_skipn k l) in H. apply bits_app in H. apply H. Qed.

Lemma bit_b2z b : bit (b2z b).
Proof. destruct b; [right|left]; reflexivity. Qed.

(** ** Powers of two *)
Lemma p2_pos w : 0 < p2 w.
Proof. unfold p2. apply Z.pow_pos_nonneg; lia. Qed.
Lemma p2_S w : p2 (S w) = 2 * p2 w.
Proof. unfold p2. rewrite Nat2Z.inj_succ, Z.pow_succ_r by lia. reflexivity. Qed.
Lemma p2_0 : p2 0 = 1. Proof. reflexivity. Qed.
Lemma p2_nat w : Z.of_nat (2 ^ w) = p2 w.
Proof.
  unfold p2. rewrite Nat2Z.inj_pow. reflexivity.
Qed.
Lemma p2_add a b : p2 (a + b) = p2 a * p2 b.
Proof. unfold p2. rewrite Nat2Z.inj_add, Z.pow_add_r by lia. reflexivity. Qed.
Lemma p2_le a b : (a <= b)%nat -> p2 a <= p2 b.
Proof. intros H. unfold p2. apply Z.pow_le_mono_r; lia. Qed.
Lemma p2_ge_1 w : 1 <= p2 w.
Proof. pose proof (p2_pos w). lia. Qed.

Lemma zlen_zrange n : zlen (zrange n) = Z.of_nat n.
Proof. unfold zlen, zrange. rewrite map_length, seq_length. reflexivity. Qed.

Lemma in_zrange n x : In x (zrange n) <-> 0 <= x < Z.of_nat n.
Proof.
  unfold zrange. rewrite in_map_iff. split.
  - intros (k & <- & Hk). apply in_seq in Hk. lia.
  - intros H. exists (Z.to_nat x). split; [lia|]. apply in_seq. lia.
Qed.

Lemma NoDup_zrange n : NoDup (zrange n).
Proof.
  unfold zrange. apply FinFun.Injective_map_NoDup; [|apply seq_NoDup].
  intros a b H. lia.
Qed.

Lemma nth_zrange n i d : (i < n)%nat -> nth i (zrange n) d = Z.of_nat i.
Proof.
  intros H. unfold zrange.
  rewrite nth_indep with (d' := Z.of_nat 0) by (rewrite map_length, seq_length; exact H).
  rewrite map_nth, seq_nth by exact H. reflexivity.
Qed.

Lemma zrange_S n : zrange (S n) = zrange n ++ [Z.of_nat n].
Proof. unfold zrange. rewrite seq_S, map_app. reflexivity. Qed.

(** Counting the integers of 0..n-1 below B. *)
Lemma countb_lt_zrange n B : countb (fun r => r <? B) (zrange n) = zclamp 0 (Z.of_nat n) B.
Proof.
  induction n as [|n IH].
  - unfold zclamp. cbn. lia.
  - rewrite zrange_S, countb_app, IH. cbn [countb]. unfold zclamp.
    destruct (Z.ltb_spec (Z.of_nat n) B); lia.
Qed.

(** A duplicate-free list of n integers in 0..n-1 is a permutation of 0..n-1. *)
Lemma nodup_range_perm l n :
  NoDup l -> length l = n -> (forall x, In x l -> 0 <= x < Z.of_nat n) -> Permutation l (zrange n).
Proof.
  intros Hnd Hlen Hin.
  apply NoDup_Permutation_bis; [exact Hnd| |].
  - unfold zrange. rewrite map_length, seq_length. lia.
  - intros x Hx. apply in_zrange. apply Hin. exact Hx.
Qed.

(** ** Rationals *)
Lemma Qle_bool_spec a b : BoolSpec (a <= b)%Q (b < a)%Q (Qle_bool a b).
Proof.
  destruct (Qle_bool a b) eqn:E; constructor.
  - apply Qle_bool_iff. exact E.
  - apply Qnot_le_lt. intros H. apply Qle_bool_iff in H. congruence.
Qed.

Ltac qcases :=
  repeat match goal with
         | |- context [Qle_bool ?a ?b] => destruct (Qle_bool_spec a b)
         | H : context [Qle_bool ?a ?b] |- _ => destruct (Qle_bool_spec a b)
         end.

Lemma qclamp_id lo hi x : (lo <= x)%Q -> (x <= hi)%Q -> (qclamp lo hi x == x)%Q.
Proof.
  intros H1 H2. unfold qclamp, qmin, qmax.
  qcases; lra.
Qed.
Lemma qclamp_range lo hi x : (lo <= hi)%Q -> (lo <= qclamp lo hi x /\ qclamp lo hi x <= hi)%Q.
Proof.
  intros H. unfold qclamp, qmin, qmax.
  qcases; lra.
Qed.

Lemma inject_Z_lt_iff a b : (inject_Z a < inject_Z b)%Q <-> a < b.
Proof. rewrite <- Zlt_Qlt. reflexivity. Qed.
Lemma inject_Z_le_iff a b : (inject_Z a <= inject_Z b)%Q <-> a <= b.
Proof. rewrite <- Zle_Qle. reflexivity. Qed.
Lemma inject_Z_pos a : 0 < a -> (0 < inject_Z a)%Q.
Proof. intros H. change 0%Q with (inject_Z 0). apply inject_Z_lt_iff. exact H. Qed.
Lemma inject_Z_eq a b : a = b -> (inject_Z a == inject_Z b)%Q.
Proof. intros ->. reflexivity. Qed.

Lemma Qfloor_spec q z : (inject_Z z <= q)%Q -> (q < inject_Z (z + 1))%Q -> Qfloor q = z.
Proof.
  intros H1 H2. pose proof (Qfloor_le q) as H3. pose proof (Qlt_floor q) as H4.
  assert (z < Qfloor q + 1).
  { apply inject_Z_lt_iff. lra. }
  assert (Qfloor q < z + 1).
  { apply inject_Z_lt_iff. lra. }
  lia.
Qed.

Lemma Qfloor_mul_div (x n : Z) : n <> 0 -> Qfloor (inject_Z x / inject_Z n * inject_Z n) = x.
Proof.
  intros Hn. rewrite <- (Qfloor_Z x) at 2. apply Qfloor_comp.
  field. intros H. apply Hn. unfold Qeq in H. simpl in H. lia.
Qed.

Lemma qround_rounds q : rounds_to q (qround q).
Proof.
  unfold rounds_to, qround.
  pose proof (Qfloor_le q) as H1. pose proof (Qlt_floor q) as H2.
  rewrite inject_Z_plus in H2. change (inject_Z 1) with 1%Q in H2.
  set (f := Qfloor q) in *.
  destruct (Qcompare_spec (q - inject_Z f) (1#2)) as [E|L|G].
  - destruct (Z.even f) eqn:Ev.
    + split; [|auto]. rewrite E. apply Qle_refl.
    + split.
      * rewrite inject_Z_plus. change (inject_Z 1) with 1%Q.
        apply Qabs_Qle_condition. lra.
      * intros _. rewrite Z.even_add, Ev. reflexivity.
  - split.
    + apply Qabs_Qle_condition. lra.
    + intros HA. exfalso. rewrite Qabs_pos in HA by lra. lra.
  - rewrite inject_Z_plus. change (inject_Z 1) with 1%Q. split.
    + apply Qabs_Qle_condition. lra.
    + intros HA. exfalso. rewrite Qabs_neg in HA by lra. lra.
Qed.

Lemma rounds_to_unique q z1 z2 : rounds_to q z1 -> rounds_to q z2 -> z1 = z2.
Proof.
  intros [A1 B1] [A2 B2].
  apply Qabs_Qle_condition in A1. apply Qabs_Qle_condition in A2.
  assert (H : z1 = z2 \/ z1 = z2 + 1 \/ z2 = z1 + 1).
  { assert (z1 < z2 + 2).
    { apply inject_Z_lt_iff. rewrite inject_Z_plus. change (inject_Z 2) with 2%Q. lra. }
    assert (z2 < z1 + 2).
    { apply inject_Z_lt_iff. rewrite inject_Z_plus. change (inject_Z 2) with 2%Q. lra. }
    lia. }
  destruct H as [H|[H|H]]; [exact H| |]; exfalso; subst.
  - rewrite inject_Z_plus in *. change (inject_Z 1) with 1%Q in *.
    assert (E2 : (q - inject_Z z2 == 1#2)%Q) by lra.
    assert (E1 : (q - (inject_Z z2 + 1) == - (1#2))%Q) by lra.
    assert (V2 : Z.even z2 = true) by (apply B2; rewrite E2; reflexivity).
    assert (V1 : Z.even (z2 + 1) = true) by (apply B1; rewrite E1; reflexivity).
    rewrite Z.even_add, V2 in V1. discriminate.
  - rewrite inject_Z_plus in *. change (inject_Z 1) with 1%Q in *.
    assert (E1 : (q - inject_Z z1 == 1#2)%Q) by lra.
    assert (E2 : (q - (inject_Z z1 + 1) == - (1#2))%Q) by lra.
    assert (V1 : Z.even z1 = true) by (apply B1; rewrite E1; reflexivity).
    assert (V2 : Z.even (z1 + 1) = true) by (apply B2; rewrite E2; reflexivity).
    rewrite Z.even_add, V1 in V2. discriminate.
Qed.

Lemma rounds_to_comp q1 q2 z : (q1 == q2)%Q -> rounds_to q1 z -> rounds_to q2 z.
Proof. intros E [H1 H2]. unfold rounds_to. rewrite <- E. split; assumption. Qed.

Lemma qround_comp q1 q2 : (q1 == q2)%Q -> qround q1 = qround q2.
Proof.
  intros E. apply (rounds_to_unique q2).
  - apply (rounds_to_comp q1); [exact E|apply qround_rounds].
  - apply qround_rounds.
Qed.

Lemma qround_Z z : qround (inject_Z z) = z.
Proof.
  apply (rounds_to_unique (inject_Z z)); [apply qround_rounds|].
  split.
  - apply Qabs_Qle_condition. lra.
  - intros H. exfalso. rewrite Qabs_pos in H by lra. lra.
Qed.

Lemma qround_abs q : (Qabs (q - inject_Z (qround q)) <= 1#2)%Q.
Proof. apply qround_rounds. Qed.

Lemma qround_bounds q : (q - (1#2) <= inject_Z (qround q) /\ inject_Z (qround q) <= q + (1#2))%Q.
Proof. pose proof (qround_abs q) as H. apply Qabs_Qle_condition in H. lra. Qed.

Lemma qround_mono q1 q2 : (q1 <= q2)%Q -> qround q1 <= qround q2.
Proof.
  intros H. destruct (Z_le_gt_dec (qround q1) (qround q2)) as [L|G]; [exact L|exfalso].
  pose proof (qround_bounds q1) as B1. pose proof (qround_bounds q2) as B2.
  assert (HZ : qround q1 = qround q2 + 1).
  { assert (qround q1 < qround q2 + 2).
    { apply inject_Z_lt_iff. rewrite inject_Z_plus. change (inject_Z 2) with 2%Q.
      destruct (Qlt_le_dec (inject_Z (qround q1)) (inject_Z (qround q2) + 2)%Q) as [?|Hc]; [assumption|].
      exfalso. lra. }
    lia. }
  assert (E : (q1 == q2)%Q).
  { rewrite HZ, inject_Z_plus in B1. change (inject_Z 1) with 1%Q in B1. lra. }
  rewrite (qround_comp _ _ E) in HZ. lia.
Qed.

Lemma qround_opp q : qround (- q) = - qround q.
Proof.
  apply (rounds_to_unique (- q)%Q); [apply qround_rounds|].
  pose proof (qround_rounds q) as [H1 H2]. unfold rounds_to.
  rewrite inject_Z_opp.
  assert (E : (- q - - inject_Z (qround q) == - (q - inject_Z (qround q)))%Q) by ring.
  rewrite E, Qabs_opp. split; [exact H1|].
  intros HA. rewrite Z.even_opp. apply H2. exact HA.
Qed.

Lemma qround_between q a b : (inject_Z a <= q)%Q -> (q <= inject_Z b)%Q -> a <= qround q <= b.
Proof.
  intros Ha Hb. rewrite <- (qround_Z a), <- (qround_Z b) at 1.
  split; apply qround_mono; assumption.
Qed.

(** ** map2 *)
Lemma map2_length {A B C} (f : A -> B -> C) xs ys : length xs = length ys -> length (map2 f xs ys) = length xs.
Proof.
  revert ys; induction xs as [|x xs IH]; intros [|y ys] H; cbn in *; try lia.
  rewrite IH; lia.
Qed.

(** ** lastn *)
Lemma lastn_all {A} n (l : list A) : (length l <= n)%nat -> lastn n l = l.
Proof. intros H. unfold lastn. replace (length l - n)%nat with 0%nat by lia. reflexivity. Qed.

Lemma lastn_length {A} n (l : list A) : (n <= length l)%nat -> length (lastn n l) = n.
Proof. intros H. unfold lastn. rewrite skipn_length. lia. Qed.

Lemma lastn_snoc {A} n (l : list A) x :
  (n <= length l)%nat -> (1 <= n)%nat -> lastn n (l ++ [x]) = tl (lastn n l) ++ [x].
Proof.
  intros H H1. unfold lastn. rewrite app_length. cbn [length].
  rewrite skipn_app. replace (length l + 1 - n - length l)%nat with 0%nat by lia.
  cbn [skipn]. f_equal.
  replace (length l + 1 - n)%nat with (S (length l - n)) by lia.
  set (k := (length l - n)%nat).
  assert (Hk : (k <= length l)%nat) by lia. clearbody k. clear H H1.
  revert l Hk. induction k as [|k IH]; intros l Hk.
  - destruct l; reflexivity.
  - destruct l as [|y l]; [reflexivity|]. cbn [skipn]. cbn [length] in Hk. apply (IH l). lia.
Qed.

(** ** prefix_max *)
Lemma prefix_max_ge f pre rest : f pre <= prefix_max f pre rest.
Proof. destruct rest; cbn [prefix_max]; lia. Qed.

Lemma prefix_max_snoc f pre rest x :
  prefix_max f pre (rest ++ [x]) = Z.max (prefix_max f pre rest) (f (pre ++ rest ++ [x])).
Proof.
  revert pre; induction rest as [|y r IH]; intros pre; cbn [app prefix_max].
  - reflexivity.
  - rewrite IH. rewrite <- app_assoc. cbn [app]. lia.
Qed.

Lemma max_prefixes_snoc f xs x :
  max_over_prefixes f (xs ++ [x]) = Z.max (max_over_prefixes f xs) (f (xs ++ [x])).
Proof. unfold max_over_prefixes. rewrite prefix_max_snoc. reflexivity. Qed.

Lemma max_prefixes_nil f : max_over_prefixes f [] = f [].
Proof. reflexivity. Qed.

(** The maximum is attained, and bounds every prefix. *)
Lemma max_prefixes_bound f xs k : f (firstn k xs) <= max_over_prefixes f xs.
Proof.
  induction xs as [|x xs IH] using rev_ind.
  - rewrite firstn_nil. cbn. lia.
  - rewrite max_prefixes_snoc.
    destruct (Nat.le_gt_cases k (length xs)) as [H|H].
    + rewrite firstn_app. replace (k - length xs)%nat with 0%nat by lia.
      cbn [firstn]. rewrite app_nil_r. lia.
    + rewrite firstn_all2 by (rewrite app_length; cbn [length]; lia). lia.
Qed.

Lemma max_prefixes_attained f xs : exists k, (k <= length xs)%nat /\ max_over_prefixes f xs = f (firstn k xs).
Proof.
  induction xs as [|x xs IH] using rev_ind.
  - exists 0%nat. split; [cbn; lia|reflexivity].
  - destruct IH as (k & Hk & E). rewrite max_prefixes_snoc.
    destruct (Z.le_gt_cases (f (xs ++ [x])) (max_over_prefixes f xs)) as [H|H].
    + exists k. rewrite app_length. cbn [length]. split; [lia|].
      rewrite firstn_app. replace (k - length xs)%nat with 0%nat by lia.
      cbn [firstn]. rewrite app_nil_r. lia.
    + exists (length (xs ++ [x])). split; [lia|]. rewrite firstn_all. lia.
Qed.

Lemma NoDup_map_in {A B} (f : A -> B) l :
  (forall x y, In x l -> In y l -> f x = f y -> x = y) -> NoDup l -> NoDup (map f l).
Proof.
  intros Hinj Hnd. induction Hnd as [|x l Hx Hnd IH]; [constructor|].
  cbn [map]. constructor.
  - intros Hin. apply in_map_iff in Hin. destruct Hin as (y & E & Hy).
    apply Hinj in E; [subst; contradiction|right; exact Hy|left; reflexivity].
  - apply IH. intros a b Ha Hb. apply Hinj; right; assumption.
Qed.

Lemma nth_cut {A} (l : list A) k d : (k < length l)%nat -> l = firstn k l ++ nth k l d :: skipn (S k) l.
Proof.
  revert l; induction k as [|k IH]; intros [|x l] H; cbn [length] in H; try lia; [reflexivity|].
  cbn [firstn nth skipn app]. f_equal. apply IH. lia.
Qed.

Lemma outs_nth {S I O} (step : S -> I -> S * O) s h k di d : (k < length h)%nat ->
  nth k (outs step s h) d = snd (step (final step s (firstn k h)) (nth k h di)).
Proof.
  intros Hk. rewrite (nth_cut h k di Hk) at 1. rewrite outs_app.
  rewrite app_nth2; rewrite outs_length, firstn_length, Nat.min_l by lia; [|lia].
  rewrite Nat.sub_diag, outs_cons. reflexivity.
Qed.

Section RunTotal.
  Context {S I O : Type}.
  Variable step : S -> I -> result (S * O).
  Variable tot : S -> I -> S * O.
  Variable Inv : S -> Prop.
  Variable P : I -> Prop.
  Hypothesis step_ok : forall s x, Inv s -> P x -> step s x = Ok (tot s x) /\ Inv (fst (tot s x)).

  Lemma run_r_total xs s : Inv s -> Forall P xs ->
    run_r step s xs = Ok (run tot s xs) /\ Inv (final tot s xs).
  Proof.
    revert s; induction xs as [|x xs IH]; intros s Hs Hx; [split; [reflexivity|exact Hs]|].
    inversion Hx as [|? ? Hx1 Hxs]; subst. destruct (step_ok s x Hs Hx1) as [E Hi].
    rewrite final_cons, run_cons. cbn [run_r]. rewrite E.
    destruct (IH (fst (tot s x)) Hi Hxs) as [E2 Hi2]. split; [|exact Hi2].
    destruct (tot s x) as [s1 o]. cbn [fst snd] in *. rewrite E2.
    destruct (run tot s1 xs) as [s2 os]. reflexivity.
  Qed.
End RunTotal.

Lemma firstn_S_nth {A} (l : list A) k d : (k < length l)%nat -> firstn (S k) l = firstn k l ++ [nth k l d].
Proof.
  intros Hk. rewrite (nth_cut l k d Hk) at 1. rewrite firstn_app, firstn_firstn, firstn_length.
  rewrite (Nat.min_r (S k) k), (Nat.min_l k (length l)) by lia.
  replace (S k - k)%nat with 1%nat by lia. reflexivity.
Qed.

Lemma Forall_firstn {A} (P : A -> Prop) k l : Forall P l -> Forall P (firstn k l).
Proof.
  intros H. apply Forall_forall. intros x Hx. rewrite Forall_forall in H. apply H.
  rewrite <- (firstn_skipn k l). apply in_or_app. left. exact Hx.
Qed.

Lemma Forall_nth_lt {A} (P : A -> Prop) l k d : Forall P l -> (k < length l)%nat -> P (nth k l d).
Proof. intros H Hk. rewrite Forall_forall in H. apply H, nth_In, Hk. Qed.

Lemma list_eq_nth {A} (l1 l2 : list A) d : length l1 = length l2 ->
  (forall k, (k < length l1)%nat -> nth k l1 d = nth k l2 d) -> l1 = l2.
Proof.
  revert l2; induction l1 as [|x l1 IH]; intros [|y l2] L H; cbn [length] in L; try lia; [reflexivity|].
  f_equal; [apply (H 0%nat); cbn; lia|]. apply IH; [lia|]. intros k Hk. apply (H (S k)). cbn [length]. lia.
Qed.

(** A property of the state after a history, for histories of admissible inputs. *)
Lemma final_ind {S I O} (step : S -> I -> S * O) (s0 : S) (P : I -> Prop) (Inv : list I -> S -> Prop) :
  Inv [] s0 ->
  (forall h s x, Inv h s -> Forall P h -> P x -> Inv (h ++ [x]) (fst (step s x))) ->
  forall h, Forall P h -> Inv h (final step s0 h).
Proof.
  intros H0 Hs. induction h as [|x h IH] using rev_ind; intros Hp; [exact H0|].
  apply Forall_app in Hp. destruct Hp as [Hp Hx]. inversion Hx; subst. rewrite final_snoc. apply Hs; auto.
Qed.
