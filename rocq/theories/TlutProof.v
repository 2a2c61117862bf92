(** Proofs about the TLUT layers and the gradients (HubModel.v). *)
From Coq Require Import String Lqa.
Require Import Verif.BaseLemmas Verif.UtilsModel Verif.UtilsProof Verif.LinearModel Verif.LinearProof Verif.HubModel Verif.HubProof.
Open Scope Z_scope.

(** ** Truncation *)
Lemma qtrunc_comp a b : (a == b)%Q -> qtrunc a = qtrunc b.
Proof.
  intros H. unfold qtrunc. rewrite (Qfloor_comp _ _ H), (Qceiling_comp _ _ H).
  destruct (Qle_bool_spec 0 a), (Qle_bool_spec 0 b); try reflexivity; lra.
Qed.

Lemma qtrunc_opp a : qtrunc (- a) = - qtrunc a.
Proof.
  unfold qtrunc, Qceiling. destruct (Qle_bool_spec 0 a) as [H|H], (Qle_bool_spec 0 (- a)) as [H'|H']; try lra.
  - assert (E : (a == 0)%Q) by lra. assert (E' : (- a == 0)%Q) by lra. rewrite (Qfloor_comp _ _ E), (Qfloor_comp _ _ E'). reflexivity.
  - rewrite (Qfloor_comp (- - a) a) by ring. reflexivity.
  - lia.
Qed.

Lemma qtrunc_pos a : (0 <= a)%Q -> qtrunc a = Qfloor a.
Proof. intros H. unfold qtrunc. destruct (Qle_bool_spec 0 a); [reflexivity|lra]. Qed.

Lemma qfrac_comp a b : (a == b)%Q -> (qfrac a == qfrac b)%Q.
Proof. intros H. unfold qfrac. rewrite (qtrunc_comp a b H), H. reflexivity. Qed.
Lemma qfrac_opp a : (qfrac (- a) == - qfrac a)%Q.
Proof. unfold qfrac. rewrite qtrunc_opp, inject_Z_opp. ring. Qed.

Lemma qclamp_comp lo hi a b : (a == b)%Q -> (qclamp lo hi a == qclamp lo hi b)%Q.
Proof. intros H. unfold qclamp, qmax. qcases; unfold qmin; qcases; lra. Qed.
Lemma qclamp_opp k a : (0 <= k)%Q -> (qclamp (- k) k (- a) == - qclamp (- k) k a)%Q.
Proof. intros H. unfold qclamp, qmax. qcases; unfold qmin; qcases; lra. Qed.
Lemma qclamp_min k a : (0 <= a)%Q -> (0 <= k)%Q -> (qclamp (- k) k a == qmin a k)%Q.
Proof. intros H K. unfold qclamp, qmax. qcases; unfold qmin; qcases; lra. Qed.
Lemma qmin_Z a b : qmin (inject_Z a) (inject_Z b) = inject_Z (Z.min a b).
Proof.
  unfold qmin. destruct (Qle_bool_spec (inject_Z a) (inject_Z b)) as [H|H].
  - pose proof (proj1 (inject_Z_le_iff _ _) H). rewrite Z.min_l by lia. reflexivity.
  - pose proof (proj1 (inject_Z_lt_iff _ _) H). rewrite Z.min_r by lia. reflexivity.
Qed.

(** ** The digits *)
Lemma digit_0 t n : digit t n 0 = n mod p2 t.
Proof. unfold digit. rewrite Nat.mul_0_r. change (p2 0) with 1. rewrite Z.div_1_r. reflexivity. Qed.
Lemma digit_S t n j : digit t n (S j) = digit t (n / p2 t) j.
Proof.
  unfold digit. replace (t * S j)%nat with (t + t * j)%nat by lia. rewrite p2_add. pose proof (p2_pos t). pose proof (p2_pos (t * j)).
  rewrite Z.div_div by lia. reflexivity.
Qed.
Lemma cut_digits_S d t top n : cut_digits (S d) t top n = Z.min top (n mod p2 t) + p2 t * cut_digits d t top (n / p2 t).
Proof.
  unfold cut_digits. cbn [seq map zsum]. rewrite digit_0, Nat.mul_0_r. change (p2 0) with 1. rewrite Z.mul_1_r. f_equal.
  rewrite <- seq_shift, map_map. change (map ?f (seq 0 d)) with (tab d f).
  transitivity (zsum (tab d (fun j => Z.min top (digit t (n / p2 t) j) * p2 (t * j) * p2 t))).
  - f_equal. apply tab_ext. intros j _. rewrite digit_S. replace (t * S j)%nat with (t * j + t)%nat by lia. rewrite p2_add. ring.
  - rewrite zsum_tab_mul_r. ring.
Qed.

Lemma cut_digits_full d t : forall top n, p2 t - 1 <= top -> 0 <= n < p2 (t * d) -> cut_digits d t top n = n.
Proof.
  induction d as [|d IH]; intros top n Ht Hn.
  - rewrite Nat.mul_0_r in Hn. change (p2 0) with 1 in Hn. cbn. lia.
  - rewrite cut_digits_S. pose proof (p2_pos t) as P. pose proof (Z.mod_pos_bound n (p2 t) P) as M. rewrite Z.min_r by lia.
    rewrite IH; [|exact Ht|].
    + pose proof (Z.div_mod n (p2 t)). lia.
    + split; [apply Z.div_pos; lia|]. apply Z.div_lt_upper_bound; [lia|]. replace (t * S d)%nat with (t + t * d)%nat in Hn by lia. rewrite p2_add in Hn. lia.
Qed.

Lemma cut_digits_bounds d t : forall top n, 0 <= top -> 0 <= n -> 0 <= cut_digits d t top n <= n.
Proof.
  induction d as [|d IH]; intros top n Ht Hn; [cbn; lia|].
  rewrite cut_digits_S. pose proof (p2_pos t) as P. pose proof (Z.mod_pos_bound n (p2 t) P) as M.
  pose proof (Z.div_mod n (p2 t) ltac:(lia)). pose proof (Z.div_pos n (p2 t) Hn P). pose proof (IH top (n / p2 t) Ht ltac:(lia)). nia.
Qed.

(** ** The loop *)
Definition qpos_floor (x : Q) : Z := Qfloor x.

Lemma tlut_loop_comp d t cyc : forall x x' new new', (x == x')%Q -> (new == new')%Q -> (tlut_loop d t cyc x new == tlut_loop d t cyc x' new')%Q.
Proof.
  induction d as [|d IH]; intros x x' new new' Hx Hn; [exact Hn|]. cbn [tlut_loop].
  assert (E : (qshr x t == qshr x' t)%Q) by (unfold qshr; rewrite Hx; reflexivity). apply IH.
  - rewrite (qtrunc_comp _ _ E). reflexivity.
  - unfold qshr at 1 3 4 6, qshl. rewrite Hn.
    pose proof (qclamp_comp (inject_Z (- cyc + 1)) (inject_Z (cyc - 1)) (qfrac (qshr x t) * qpow2 t) (qfrac (qshr x' t) * qpow2 t)) as C.
    rewrite C; [reflexivity|]. rewrite (qfrac_comp _ _ E). reflexivity.
Qed.

Lemma tlut_loop_opp d t cyc : 1 <= cyc -> forall x new, (tlut_loop d t cyc (- x) (- new) == - tlut_loop d t cyc x new)%Q.
Proof.
  intros Hc. induction d as [|d IH]; intros x new; [reflexivity|]. cbn [tlut_loop]. rewrite <- IH. apply tlut_loop_comp.
  - assert (E : (qshr (- x) t == - qshr x t)%Q) by (unfold qshr, Qdiv; ring). rewrite (qtrunc_comp _ _ E), qtrunc_opp, inject_Z_opp. reflexivity.
  - assert (E : (qshr (- x) t == - qshr x t)%Q) by (unfold qshr, Qdiv; ring).
    unfold qshr at 1 3 4 6, qshl.
    assert (K : inject_Z (- cyc + 1) = (- inject_Z (cyc - 1))%Q) by (rewrite <- inject_Z_opp; f_equal; lia). rewrite K.
    assert (K0 : (0 <= inject_Z (cyc - 1))%Q) by (change 0%Q with (inject_Z 0); apply inject_Z_le_iff; lia).
    pose proof (qclamp_opp (inject_Z (cyc - 1)) (qfrac (qshr x t) * qpow2 t) K0) as C1.
    pose proof (qclamp_comp (- inject_Z (cyc - 1)) (inject_Z (cyc - 1)) (qfrac (qshr (- x) t) * qpow2 t) (- (qfrac (qshr x t) * qpow2 t))) as C2.
    rewrite C2, C1; [unfold Qdiv; ring|]. rewrite (qfrac_comp _ _ E), qfrac_opp. ring.
Qed.

(** The remainder of a non-negative rational modulo 2^t (possibly with a fractional part). *)
Lemma loop_step x t cyc : (0 <= x)%Q -> 1 <= cyc ->
  inject_Z (qtrunc (qshr x (Z.of_nat t))) = inject_Z (Qfloor x / p2 t) /\
  (qclamp (inject_Z (- cyc + 1)) (inject_Z (cyc - 1)) (qshl (qfrac (qshr x (Z.of_nat t))) (Z.of_nat t))
   == qmin (inject_Z (Qfloor x mod p2 t) + (x - inject_Z (Qfloor x))) (inject_Z (cyc - 1)))%Q.
Proof.
  intros Hx Hc. pose proof (p2_pos t) as P. assert (PQ : (qpow2 (Z.of_nat t) == inject_Z (p2 t))%Q) by (apply qpow2_Z; lia).
  assert (P' : (0 < inject_Z (p2 t))%Q) by (apply inject_Z_pos; lia).
  assert (E : (qshr x (Z.of_nat t) == x / inject_Z (p2 t))%Q) by (unfold qshr; rewrite PQ; reflexivity).
  assert (N : (0 <= x / inject_Z (p2 t))%Q) by (apply Qle_shift_div_l; [exact P'|lra]).
  assert (T : qtrunc (qshr x (Z.of_nat t)) = Qfloor x / p2 t).
  { rewrite (qtrunc_comp _ _ E), qtrunc_pos by exact N.
    pose proof (Z.div_mod (Qfloor x) (p2 t) ltac:(lia)) as DM. pose proof (Z.mod_pos_bound (Qfloor x) (p2 t) P) as M.
    pose proof (Qfloor_le x) as F1. pose proof (Qlt_floor x) as F2.
    apply Qfloor_spec.
    - apply Qle_shift_div_l; [exact P'|]. rewrite <- inject_Z_mult. eapply Qle_trans; [|exact F1]. apply inject_Z_le_iff. lia.
    - apply Qlt_shift_div_r; [exact P'|]. rewrite <- inject_Z_mult. eapply Qlt_le_trans; [exact F2|]. apply inject_Z_le_iff. lia. }
  split; [rewrite T; reflexivity|].
  assert (Fr : (qshl (qfrac (qshr x (Z.of_nat t))) (Z.of_nat t) == inject_Z (Qfloor x mod p2 t) + (x - inject_Z (Qfloor x)))%Q).
  { unfold qshl, qfrac. rewrite T, E, PQ. rewrite Zmod_eq_full by lia. unfold Z.sub. rewrite inject_Z_plus, inject_Z_opp, inject_Z_mult. field. lra. }
  assert (K : inject_Z (- cyc + 1) = (- inject_Z (cyc - 1))%Q) by (rewrite <- inject_Z_opp; f_equal; lia). rewrite K.
  rewrite (qclamp_comp _ _ _ _ Fr). apply qclamp_min.
  - pose proof (Qfloor_le x). pose proof (Z.mod_pos_bound (Qfloor x) (p2 t) P). assert (0 <= inject_Z (Qfloor x mod p2 t))%Q by (change 0%Q with (inject_Z 0); apply inject_Z_le_iff; lia). lra.
  - change 0%Q with (inject_Z 0). apply inject_Z_le_iff. lia.
Qed.

Lemma qpow2_p2 t : (qpow2 (Z.of_nat t) == inject_Z (p2 t))%Q.
Proof. apply qpow2_Z. lia. Qed.
Lemma p2_Q_pos t : (0 < inject_Z (p2 t))%Q.
Proof. apply inject_Z_pos, p2_pos. Qed.

Lemma tlut_loop_nat d t cyc : 1 <= cyc -> forall n new, 0 <= n ->
  (tlut_loop d (Z.of_nat t) cyc (inject_Z n) new == (new + inject_Z (cut_digits d t (cyc - 1) n)) / inject_Z (p2 (t * d)))%Q.
Proof.
  intros Hc. induction d as [|d IH]; intros n new Hn.
  - cbn [tlut_loop]. rewrite Nat.mul_0_r. change (p2 0) with 1. change (cut_digits 0 t (cyc - 1) n) with 0. change (inject_Z 1) with 1%Q. change (inject_Z 0) with 0%Q. field.
  - cbn [tlut_loop].
    assert (Hn' : (0 <= inject_Z n)%Q) by (change 0%Q with (inject_Z 0); apply inject_Z_le_iff; lia).
    destruct (loop_step (inject_Z n) t cyc Hn' Hc) as [E1 E2]. rewrite Qfloor_Z in E1, E2.
    assert (E3 : (inject_Z (n mod p2 t) + (inject_Z n - inject_Z n) == inject_Z (n mod p2 t))%Q) by ring.
    assert (E4 : (qmin (inject_Z (n mod p2 t) + (inject_Z n - inject_Z n)) (inject_Z (cyc - 1)) == inject_Z (Z.min (cyc - 1) (n mod p2 t)))%Q).
    { rewrite Z.min_comm, <- qmin_Z. unfold qmin. qcases; lra. }
    rewrite E4 in E2. clear E3 E4.
    set (cl := qclamp (inject_Z (- cyc + 1)) _ _) in *. clearbody cl. rewrite E1. rewrite IH by (apply Z.div_pos; [lia|apply p2_pos]).
    rewrite cut_digits_S. replace (t * S d)%nat with (t + t * d)%nat by lia. rewrite p2_add.
    rewrite inject_Z_plus, !inject_Z_mult. unfold qshr. rewrite E2, qpow2_p2.
    pose proof (p2_Q_pos t). pose proof (p2_Q_pos (t * d)). field. split; lra.
Qed.

Lemma tlut_loop_Z d t cyc n : 1 <= cyc ->
  (tlut_loop d (Z.of_nat t) cyc (inject_Z n) 0 == inject_Z (Z.sgn n * cut_digits d t (cyc - 1) (Z.abs n)) / inject_Z (p2 (t * d)))%Q.
Proof.
  intros Hc. destruct (Z_le_gt_dec 0 n) as [H|H].
  - rewrite tlut_loop_nat by assumption. rewrite (Z.abs_eq n H). destruct (Z.eq_dec n 0) as [->|Hn].
    + pose proof (cut_digits_bounds d t (cyc - 1) 0 ltac:(lia) ltac:(lia)). replace (cut_digits d t (cyc - 1) 0) with 0 by lia.
      change (Z.sgn 0 * 0) with 0. change (inject_Z 0) with 0%Q. field. pose proof (p2_Q_pos (t * d)). lra.
    + rewrite Z.sgn_pos by lia. rewrite Z.mul_1_l. field. pose proof (p2_Q_pos (t * d)). lra.
  - rewrite Z.sgn_neg by lia. rewrite Z.abs_neq by lia.
    rewrite (tlut_loop_comp d (Z.of_nat t) cyc (inject_Z n) (- inject_Z (- n)) 0 (- 0)).
    + rewrite tlut_loop_opp by exact Hc. rewrite tlut_loop_nat by lia. rewrite inject_Z_mult. change (inject_Z (-1)) with (-1)%Q.
      field. pose proof (p2_Q_pos (t * d)). lra.
    + rewrite inject_Z_opp. ring.
    + reflexivity.
Qed.

(** ** Fixed point operands *)
Lemma degree_covers width t : (1 <= t)%nat -> (width <= t * tlut_degree width t)%nat.
Proof.
  intros Ht. unfold tlut_degree. pose proof (Nat.div_mod (width + t - 1) t ltac:(lia)). pose proof (Nat.mod_upper_bound (width + t - 1) t ltac:(lia)). lia.
Qed.

Lemma tlut_quant_spec width r x :
  let X := tlut_quant width r x in let y := (x / Qpower 2 r)%Q in
  Z.abs X <= p2 width - 1 /\
  ((Qabs y <= inject_Z (p2 width - 1))%Q -> X = qtrunc y) /\
  ((inject_Z (p2 width - 1) <= y)%Q -> X = p2 width - 1) /\ ((y <= - inject_Z (p2 width - 1))%Q -> X = 1 - p2 width).
Proof.
  intros X y. pose proof (p2_ge_1 width) as PW. set (k := p2 width - 1) in *.
  assert (K0 : (0 <= inject_Z k)%Q) by (change 0%Q with (inject_Z 0); apply inject_Z_le_iff; lia).
  assert (EX : X = qtrunc (qclamp (- inject_Z k) (inject_Z k) y)).
  { unfold X, tlut_quant, qshr. fold k. rewrite <- inject_Z_opp. replace (- p2 width + 1) with (- k) by (unfold k; lia). reflexivity. }
  rewrite EX. clear EX X. clearbody y.
  assert (TZ : forall z, qtrunc (inject_Z z) = z).
  { intros z. unfold qtrunc. rewrite Qfloor_Z. unfold Qceiling. rewrite <- inject_Z_opp, Qfloor_Z. destruct (Qle_bool 0 (inject_Z z)); lia. }
  split; [|split; [|split]].
  - set (c := qclamp (- inject_Z k) (inject_Z k) y). destruct (qclamp_range (- inject_Z k) (inject_Z k) y ltac:(lra)) as [C1 C2]. fold c in C1, C2. clearbody c.
    destruct (Qlt_le_dec c 0) as [H|H].
    + rewrite <- (Z.opp_involutive (qtrunc c)), <- qtrunc_opp, Z.abs_opp, qtrunc_pos by lra.
      assert (Qfloor (- c) <= Qfloor (inject_Z k)) by (apply Qfloor_resp_le; lra). rewrite Qfloor_Z in *.
      assert (Qfloor (inject_Z 0) <= Qfloor (- c)) by (apply Qfloor_resp_le; change (inject_Z 0) with 0%Q; lra). rewrite Qfloor_Z in *. lia.
    + rewrite qtrunc_pos by lra.
      assert (Qfloor c <= Qfloor (inject_Z k)) by (apply Qfloor_resp_le; lra). rewrite Qfloor_Z in *.
      assert (Qfloor (inject_Z 0) <= Qfloor c) by (apply Qfloor_resp_le; change (inject_Z 0) with 0%Q; lra). rewrite Qfloor_Z in *. lia.
  - intros H. apply Qabs_Qle_condition in H. apply qtrunc_comp, qclamp_id; lra.
  - intros H. rewrite (qtrunc_comp _ (inject_Z k)); [apply TZ|]. unfold qclamp, qmax. qcases; unfold qmin; qcases; lra.
  - intros H. rewrite (qtrunc_comp _ (inject_Z (- k))); [rewrite TZ; unfold k; lia|]. rewrite inject_Z_opp. unfold qclamp, qmax. qcases; unfold qmin; qcases; lra.
Qed.

Theorem tlut_temporal_eq : forall width t cyc r x, (1 <= t)%nat -> 1 <= cyc ->
  let X := tlut_quant width r x in
  (tlut_temporal width t cyc r x == inject_Z (Z.sgn X * cut_digits (tlut_degree width t) t (cyc - 1) (Z.abs X)) * Qpower 2 r)%Q.
Proof.
  intros width t cyc r x Ht Hc X. unfold tlut_temporal. fold X. unfold qshl, tlut_delta. rewrite tlut_loop_Z by exact Hc.
  set (d := tlut_degree width t). set (V := Z.sgn X * _).
  replace (Z.of_nat (d * t) - Z.of_nat width + Z.of_nat width + r) with (Z.of_nat (t * d) + r) by lia.
  rewrite qpow2_add, qpow2_p2. change (Qpower 2 r) with (qpow2 r). pose proof (p2_Q_pos (t * d)). field. lra.
Qed.

Theorem tlut_temporal_full : forall width t r x, (1 <= t)%nat ->
  (tlut_temporal width t (p2 t) r x == tlut_plain width r x)%Q.
Proof.
  intros width t r x Ht. rewrite tlut_temporal_eq by (try exact Ht; apply p2_ge_1).
  destruct (tlut_quant_spec width r x) as (B & _). set (X := tlut_quant width r x) in *. rewrite cut_digits_full.
  - replace (Z.sgn X * Z.abs X) with X by lia. unfold tlut_plain, qshl. fold X. reflexivity.
  - lia.
  - pose proof (degree_covers width t Ht) as D. pose proof (p2_le _ _ D). lia.
Qed.

Theorem tlut_temporal_cut : forall width t cyc r x, (1 <= t)%nat -> 1 <= cyc ->
  (0 <= tlut_plain width r x * tlut_temporal width t cyc r x)%Q /\
  (Qabs (tlut_temporal width t cyc r x) <= Qabs (tlut_plain width r x))%Q.
Proof.
  intros width t cyc r x Ht Hc. pose proof (tlut_temporal_eq width t cyc r x Ht Hc) as E. cbn zeta in E.
  unfold tlut_plain, qshl. set (X := tlut_quant width r x) in *.
  pose proof (cut_digits_bounds (tlut_degree width t) t (cyc - 1) (Z.abs X) ltac:(lia) ltac:(lia)) as B.
  set (V := cut_digits _ _ _ _) in *. clearbody V. rewrite E. change (Qpower 2 r) with (qpow2 r). pose proof (qpow2_pos r) as P. split.
  - assert (E1 : (inject_Z X * qpow2 r * (inject_Z (Z.sgn X * V) * qpow2 r) == inject_Z (X * (Z.sgn X * V)) * (qpow2 r * qpow2 r))%Q) by (rewrite (inject_Z_mult X); ring).
    rewrite E1. apply Qmult_le_0_compat; [|nra]. change 0%Q with (inject_Z 0). apply inject_Z_le_iff. destruct (Z.sgn_spec X) as [[? ->]|[[? ->]|[? ->]]]; nia.
  - rewrite !Qabs_Qmult. apply Qmult_le_compat_r; [|apply Qabs_nonneg]. change (Qabs (inject_Z (Z.sgn X * V))) with (inject_Z (Z.abs (Z.sgn X * V))).
    change (Qabs (inject_Z X)) with (inject_Z (Z.abs X)). apply inject_Z_le_iff. destruct (Z.sgn_spec X) as [[? ->]|[[? ->]|[? ->]]]; lia.
Qed.

(** ** Layers *)
Lemma matmul_entry f g B n no input weight bias b o : qshape B n input -> qshape no n weight -> bias_ok no bias -> (b < B)%nat -> (o < no)%nat ->
  (qentry (add_bias bias (qmatmul_t (map (map f) input) (map (map g) weight))) b o
   == dotq n (fun i => f (qentry input b i)) (fun i => g (qentry weight o i)) + bias_entry bias o)%Q.
Proof.
  intros Hi Hw Hb Lb Lo.
  assert (Sm : forall h r c m, qshape r c m -> qshape r c (map (map h) m)).
  { intros h r c m [S1 S2]. split; [rewrite map_length; exact S1|]. rewrite Forall_map. revert S2. apply Forall_impl. intros a E. rewrite map_length. exact E. }
  unfold qmatmul_t. rewrite (layer_entry qdot B n no _ _ bias b o (Sm f _ _ _ Hi) (Sm g _ _ _ Hw) Hb Lb Lo). apply Qplus_inj_r.
  unfold qdot. pose proof (qshape_row B n input b Hi Lb) as R1. pose proof (qshape_row no n weight o Hw Lo) as R2.
  rewrite (map_nth_lt (map f) input b [] []) by (destruct Hi; lia). rewrite (map_nth_lt (map g) weight o [] []) by (destruct Hw; lia).
  rewrite (map2_seq _ n _ _ 0%Q 0%Q) by (rewrite map_length; assumption).
  unfold dotq. change (map ?h (seq 0 n)) with (tab n h). apply qsum_tab_ext. intros i Hi'.
  rewrite (map_nth_lt f _ i 0%Q 0%Q), (map_nth_lt g _ i 0%Q 0%Q) by lia. reflexivity.
Qed.

Definition tlut_operands (tin : bool) (widthi widthw t : nat) (cyc ri rw : Z) : (Q -> Q) * (Q -> Q) :=
  if tin then (tlut_temporal widthi t cyc ri, tlut_plain widthw rw) else (tlut_plain widthi ri, tlut_temporal widthw t cyc rw).

Theorem tlut_fxpfxp_eq : forall tin widthi widthw t cyc ri rw B n no input weight bias,
  qshape B n input -> qshape no n weight -> bias_ok no bias ->
  forall b o, (b < B)%nat -> (o < no)%nat ->
  (qentry (tlut_fxpfxp tin widthi widthw t cyc ri rw input weight bias) b o ==
   dotq n (fun i => fst (tlut_operands tin widthi widthw t cyc ri rw) (qentry input b i))
          (fun i => snd (tlut_operands tin widthi widthw t cyc ri rw) (qentry weight o i)) + bias_entry bias o)%Q.
Proof.
  intros tin widthi widthw t cyc ri rw B n no input weight bias Hi Hw Hb b o Lb Lo. unfold tlut_fxpfxp, tlut_operands.
  destruct tin; cbn [fst snd]; apply (matmul_entry _ _ B n no); assumption.
Qed.

(** Without early termination the choice of the temporal operand does not matter. *)
Theorem tlut_fxpfxp_full : forall tin widthi widthw t ri rw B n no input weight bias, (1 <= t)%nat ->
  qshape B n input -> qshape no n weight -> bias_ok no bias ->
  forall b o, (b < B)%nat -> (o < no)%nat ->
  (qentry (tlut_fxpfxp tin widthi widthw t (tlut_cycle t None) ri rw input weight bias) b o ==
   dotq n (fun i => tlut_plain widthi ri (qentry input b i)) (fun i => tlut_plain widthw rw (qentry weight o i)) + bias_entry bias o)%Q.
Proof.
  intros tin widthi widthw t ri rw B n no input weight bias Ht Hi Hw Hb b o Lb Lo.
  rewrite (tlut_fxpfxp_eq _ _ _ _ _ _ _ B n no) by assumption. apply Qplus_inj_r. apply dotq_ext. intros i _.
  unfold tlut_operands, tlut_cycle. destruct tin; cbn [fst snd]; rewrite ?tlut_temporal_full by exact Ht; split; reflexivity.
Qed.

Theorem tlut_fxpfp_full : forall tin width t ri rw B n no input weight bias, (1 <= t)%nat ->
  qshape B n input -> qshape no n weight -> bias_ok no bias ->
  forall b o, (b < B)%nat -> (o < no)%nat ->
  (qentry (tlut_fxpfp tin width t (tlut_cycle t None) ri rw input weight bias) b o ==
   (if tin then dotq n (fun i => tlut_plain width ri (qentry input b i)) (qentry weight o)
    else dotq n (qentry input b) (fun i => tlut_plain width rw (qentry weight o i))) + bias_entry bias o)%Q.
Proof.
  intros tin width t ri rw B n no input weight bias Ht Hi Hw Hb b o Lb Lo. unfold tlut_fxpfp, tlut_cycle.
  assert (I : forall m : list (list Q), m = map (map (fun x => x)) m) by (intros m; rewrite (map_ext _ (fun x => x)) by apply map_id; symmetry; apply map_id).
  destruct tin.
  - rewrite (I weight) at 1. rewrite (matmul_entry _ _ B n no) by assumption. apply Qplus_inj_r, dotq_ext. intros i _.
    split; [apply tlut_temporal_full, Ht|reflexivity].
  - rewrite (I input) at 1. rewrite (matmul_entry _ _ B n no) by assumption. apply Qplus_inj_r, dotq_ext. intros i _.
    split; [reflexivity|apply tlut_temporal_full, Ht].
Qed.

(** Any cycle limit, all three format pairs: only the temporal coded operand goes through the loop. *)
Theorem tlut_layer_any : forall (tin : bool) widthi widthw width t cyc ri rw B n no input weight bias,
  qshape B n input -> qshape no n weight -> bias_ok no bias ->
  forall b o, (b < B)%nat -> (o < no)%nat ->
  (qentry (tlut_fxpfxp tin widthi widthw t cyc ri rw input weight bias) b o ==
   (if tin then dotq n (fun i => tlut_temporal widthi t cyc ri (qentry input b i)) (fun i => tlut_plain widthw rw (qentry weight o i))
    else dotq n (fun i => tlut_plain widthi ri (qentry input b i)) (fun i => tlut_temporal widthw t cyc rw (qentry weight o i))) + bias_entry bias o)%Q /\
  (qentry (tlut_fxpfp tin width t cyc ri rw input weight bias) b o ==
   (if tin then dotq n (fun i => tlut_temporal width t cyc ri (qentry input b i)) (qentry weight o)
    else dotq n (qentry input b) (fun i => tlut_temporal width t cyc rw (qentry weight o i))) + bias_entry bias o)%Q /\
  (qentry (tlut_fpfp tin width t cyc input weight bias) b o ==
   (if tin then dotq n (fun i => tlut_mantissa width t cyc (qentry input b i)) (qentry weight o)
    else dotq n (qentry input b) (fun i => tlut_mantissa width t cyc (qentry weight o i))) + bias_entry bias o)%Q.
Proof.
  intros tin widthi widthw width t cyc ri rw B n no input weight bias Hi Hw Hb b o Lb Lo. unfold tlut_fxpfp, tlut_fpfp.
  assert (I : forall m : list (list Q), m = map (map (fun x => x)) m) by (intros m; rewrite (map_ext _ (fun x => x)) by apply map_id; symmetry; apply map_id).
  split; [|split].
  - rewrite (tlut_fxpfxp_eq _ _ _ _ _ _ _ B n no) by assumption. unfold tlut_operands. destruct tin; reflexivity.
  - destruct tin.
    + rewrite (I weight) at 1. rewrite (matmul_entry _ _ B n no) by assumption. reflexivity.
    + rewrite (I input) at 1. rewrite (matmul_entry _ _ B n no) by assumption. reflexivity.
  - destruct tin.
    + rewrite (I weight) at 1. rewrite (matmul_entry _ _ B n no) by assumption. reflexivity.
    + rewrite (I input) at 1. rewrite (matmul_entry _ _ B n no) by assumption. reflexivity.
Qed.

(** ** Floating point operands *)
Lemma qpow2_mono a b : a <= b -> (qpow2 a <= qpow2 b)%Q.
Proof.
  intros H. replace b with (a + (b - a)) by lia. rewrite qpow2_add, (qpow2_Z (b - a)) by lia. pose proof (qpow2_pos a).
  assert (1 <= inject_Z (2 ^ (b - a)))%Q by (change 1%Q with (inject_Z 1); apply inject_Z_le_iff; pose proof (Z.pow_pos_nonneg 2 (b - a)); lia). nra.
Qed.

Lemma exponent_unique s a b : (qpow2 a <= s)%Q -> (s < qpow2 (a + 1))%Q -> (qpow2 b <= s)%Q -> (s < qpow2 (b + 1))%Q -> a = b.
Proof.
  intros A1 A2 B1 B2. destruct (Z.lt_trichotomy a b) as [L|[E|L]]; [|exact E|]; exfalso.
  - pose proof (qpow2_mono (a + 1) b ltac:(lia)). lra.
  - pose proof (qpow2_mono (b + 1) a ltac:(lia)). lra.
Qed.

Lemma qfrexp_spec x e : (Qpower 2 (e - 1) <= Qabs x)%Q -> (Qabs x < Qpower 2 e)%Q -> qfrexp x = (qshr x e, e).
Proof.
  intros H1 H2. change (Qpower 2) with qpow2 in *. pose proof (qpow2_pos (e - 1)) as P. unfold qfrexp.
  destruct (Qeq_bool x 0) eqn:Ez.
  - apply Qeq_bool_eq in Ez. rewrite Ez in H1. change (Qabs 0) with 0%Q in H1. lra.
  - destruct (qlog2_floor_spec (Qabs x) ltac:(lra)) as [L U].
    assert (qlog2_floor (Qabs x) = e - 1) as ->.
    { apply (exponent_unique (Qabs x)); try assumption. replace (e - 1 + 1) with e by lia. exact H2. }
    replace (e - 1 + 1) with e by lia. reflexivity.
Qed.

Lemma degree_pos width t : (1 <= t)%nat -> (1 <= width)%nat -> exists d, tlut_degree width t = S d.
Proof.
  intros Ht Hw. unfold tlut_degree. assert (1 <= (width + t - 1) / t)%nat by (apply Nat.div_le_lower_bound; lia).
  exists (pred ((width + t - 1) / t)). lia.
Qed.

(** The value rebuilt from a magnitude Y with a fractional part: only the lowest digit carries the fraction. *)
Definition cut_digits_frac (d t : nat) (top : Z) (Y : Q) : Q :=
  (qmin (inject_Z (Qfloor Y mod p2 t) + (Y - inject_Z (Qfloor Y))) (inject_Z top) + inject_Z (p2 t * cut_digits (pred d) t top (Qfloor Y / p2 t)))%Q.

Lemma tlut_loop_frac d t cyc Y : 1 <= cyc -> (0 <= Y)%Q ->
  (tlut_loop (S d) (Z.of_nat t) cyc Y 0 == cut_digits_frac (S d) t (cyc - 1) Y / inject_Z (p2 (t * S d)))%Q.
Proof.
  intros Hc HY. cbn [tlut_loop]. destruct (loop_step Y t cyc HY Hc) as [E1 E2].
  set (cl := qclamp (inject_Z (- cyc + 1)) _ _) in *. clearbody cl. rewrite E1.
  assert (FN : 0 <= Qfloor Y) by (change 0 with (Qfloor (inject_Z 0)); apply Qfloor_resp_le; change (inject_Z 0) with 0%Q; exact HY).
  rewrite (tlut_loop_nat d t cyc Hc (Qfloor Y / p2 t)) by (apply Z.div_pos; [exact FN|apply p2_pos]).
  unfold cut_digits_frac. cbn [pred]. unfold qshr. rewrite E2, qpow2_p2.
  replace (t * S d)%nat with (t + t * d)%nat by lia. rewrite p2_add, !inject_Z_mult.
  pose proof (p2_Q_pos t). pose proof (p2_Q_pos (t * d)). field. split; lra.
Qed.

Theorem tlut_mantissa_eq : forall width t cyc x e, (1 <= t)%nat -> (1 <= width)%nat -> 1 <= cyc ->
  (Qpower 2 (e - 1) <= Qabs x)%Q -> (Qabs x < Qpower 2 e)%Q ->
  (tlut_mantissa width t cyc x ==
   inject_Z (qsign x) * cut_digits_frac (tlut_degree width t) t (cyc - 1) (Qabs x * Qpower 2 (Z.of_nat width - e)) * Qpower 2 (e - Z.of_nat width))%Q.
Proof.
  intros width t cyc x e Ht Hw Hc H1 H2. unfold tlut_mantissa. rewrite (qfrexp_spec x e H1 H2).
  destruct (degree_pos width t Ht Hw) as [d Ed]. unfold tlut_delta. rewrite Ed. change (Qpower 2) with qpow2 in *.
  pose proof (qpow2_pos (e - 1)) as P1. pose proof (qpow2_pos (Z.of_nat width - e)) as P2.
  set (Y := (Qabs x * qpow2 (Z.of_nat width - e))%Q).
  assert (Y0 : (0 <= Y)%Q) by (unfold Y; pose proof (Qabs_nonneg x); apply Qmult_le_0_compat; lra).
  pose proof (tlut_loop_frac d t cyc Y Hc Y0) as L.
  assert (Sc : forall v, (v / inject_Z (p2 (t * S d)) * qpow2 (Z.of_nat (S d * t) - Z.of_nat width) * qpow2 e == v * qpow2 (e - Z.of_nat width))%Q).
  { intros v. pose proof (p2_Q_pos (t * S d)) as P. unfold Z.sub at 1. rewrite qpow2_add. replace (S d * t)%nat with (t * S d)%nat by lia. rewrite qpow2_p2.
    unfold Z.sub. rewrite qpow2_add. field. lra. }
  assert (Sh : (qshl (qshr x e) (Z.of_nat width) == x * qpow2 (Z.of_nat width - e))%Q).
  { unfold qshl, qshr. unfold Z.sub. rewrite qpow2_add. assert (qpow2 e * qpow2 (- e) == 1)%Q by (rewrite <- qpow2_add, Z.add_opp_diag_r; reflexivity).
    pose proof (qpow2_pos e). apply (Qmult_inj_r _ _ (qpow2 e)); [lra|]. transitivity (x * qpow2 (Z.of_nat width) * 1)%Q; [field; lra|]. rewrite <- H. ring. }
  destruct (Qtri x) as [Hx|[Hx|Hx]].
  - rewrite (qsign_pos x Hx). unfold qshl at 1 2. rewrite (tlut_loop_comp _ _ _ _ Y 0 0); [|unfold Y; rewrite Qabs_pos by lra; exact Sh|reflexivity].
    rewrite L, Sc. change (inject_Z 1) with 1%Q. ring.
  - rewrite Hx in H1. change (Qabs 0) with 0%Q in H1. lra.
  - rewrite (qsign_neg x Hx). unfold qshl at 1 2.
    rewrite (tlut_loop_comp _ _ _ _ (- Y) 0 (- 0)); [|unfold Y; rewrite Qabs_neg by lra; rewrite Sh; ring|reflexivity].
    rewrite tlut_loop_opp by exact Hc. rewrite L. pose proof (Sc (cut_digits_frac (S d) t (cyc - 1) Y)) as S'.
    transitivity (- (cut_digits_frac (S d) t (cyc - 1) Y / inject_Z (p2 (t * S d)) * qpow2 (Z.of_nat (S d * t) - Z.of_nat width) * qpow2 e))%Q; [ring|].
    rewrite S'. change (inject_Z (-1)) with (-1)%Q. ring.
Qed.

Lemma cut_digits_frac_full d t Y : (1 <= d)%nat -> (0 <= Y)%Q -> (Y < inject_Z (p2 (t * d)))%Q ->
  (cut_digits_frac d t (p2 t - 1) Y == qmin Y (inject_Z (Qfloor Y + (p2 t - 1 - Qfloor Y mod p2 t))))%Q /\
  (inject_Z (Qfloor Y) <= cut_digits_frac d t (p2 t - 1) Y)%Q /\ (cut_digits_frac d t (p2 t - 1) Y <= Y)%Q.
Proof.
  intros Hd HY HB. destruct d as [|d]; [lia|]. unfold cut_digits_frac. cbn [pred].
  assert (FN : 0 <= Qfloor Y) by (change 0 with (Qfloor (inject_Z 0)); apply Qfloor_resp_le; change (inject_Z 0) with 0%Q; exact HY).
  pose proof (Qfloor_le Y) as F1. pose proof (Qlt_floor Y) as F2. set (N := Qfloor Y) in *. pose proof (p2_pos t) as P.
  assert (NB : N < p2 (t * S d)) by (apply inject_Z_lt_iff; lra).
  rewrite cut_digits_full; [|lia|].
  2:{ split; [apply Z.div_pos; lia|]. apply Z.div_lt_upper_bound; [lia|]. replace (t * S d)%nat with (t + t * d)%nat in NB by lia. rewrite p2_add in NB. lia. }
  pose proof (Z.div_mod N (p2 t) ltac:(lia)) as DM. pose proof (Z.mod_pos_bound N (p2 t) P) as M.
  assert (EN : (inject_Z N == inject_Z (p2 t * (N / p2 t)) + inject_Z (N mod p2 t))%Q) by (rewrite <- inject_Z_plus; rewrite <- DM; reflexivity).
  assert (EM : (inject_Z (N + (p2 t - 1 - N mod p2 t)) == inject_Z (p2 t * (N / p2 t)) + inject_Z (p2 t - 1))%Q) by (rewrite <- inject_Z_plus; apply inject_Z_eq; lia).
  assert (MB : (inject_Z (N mod p2 t) <= inject_Z (p2 t - 1))%Q) by (apply inject_Z_le_iff; lia).
  set (A := inject_Z (p2 t * (N / p2 t))) in *. set (Bm := inject_Z (N mod p2 t)) in *. set (T := inject_Z (p2 t - 1)) in *.
  split; [|split].
  - unfold qmin. qcases; lra.
  - unfold qmin. qcases; lra.
  - unfold qmin. qcases; lra.
Qed.

(** Full cycle: within one unit below in magnitude, never above; exact when the mantissa fits. *)
Theorem tlut_mantissa_full : forall width t x e, (1 <= t)%nat -> (1 <= width)%nat ->
  (Qpower 2 (e - 1) <= Qabs x)%Q -> (Qabs x < Qpower 2 e)%Q ->
  let u := Qpower 2 (e - Z.of_nat width) in
  let y := tlut_mantissa width t (p2 t) x in
  (0 <= x * y)%Q /\ (Qabs y <= Qabs x)%Q /\ (Qabs x < Qabs y + u)%Q /\
  (forall z, (x == inject_Z z * u)%Q -> (y == x)%Q).
Proof.
  intros width t x e Ht Hw H1 H2 u y. pose proof (tlut_mantissa_eq width t (p2 t) x e Ht Hw (p2_ge_1 t) H1 H2) as E. fold y u in E.
  set (Y := (Qabs x * Qpower 2 (Z.of_nat width - e))%Q) in *. change (Qpower 2) with qpow2 in *.
  pose proof (qpow2_pos (e - Z.of_nat width)) as Pu. fold u in Pu. pose proof (qpow2_pos (Z.of_nat width - e)) as Pv.
  assert (UV : (u * qpow2 (Z.of_nat width - e) == 1)%Q) by (unfold u; rewrite <- qpow2_add; replace (_ + _) with 0 by lia; reflexivity).
  assert (EY : (Y * u == Qabs x)%Q) by (unfold Y; rewrite <- Qmult_assoc, (Qmult_comm (qpow2 _)), UV; ring).
  assert (Y0 : (0 <= Y)%Q) by (unfold Y; pose proof (Qabs_nonneg x); apply Qmult_le_0_compat; lra).
  assert (YB : (Y < inject_Z (p2 (t * tlut_degree width t)))%Q).
  { apply (Qlt_le_trans _ (inject_Z (p2 width))).
    - unfold Y. rewrite <- (qpow2_p2 width). apply (Qlt_le_trans _ (qpow2 e * qpow2 (Z.of_nat width - e))).
      + apply Qmult_lt_compat_r; assumption.
      + rewrite <- qpow2_add. replace (e + (Z.of_nat width - e)) with (Z.of_nat width) by lia. apply Qle_refl.
    - apply inject_Z_le_iff. apply p2_le, degree_covers, Ht. }
  destruct (degree_pos width t Ht Hw) as [d Ed].
  destruct (cut_digits_frac_full (tlut_degree width t) t Y ltac:(lia) Y0 YB) as (C1 & C2 & C3).
  set (V := cut_digits_frac _ _ _ _) in *. pose proof (Qlt_floor Y) as F2. pose proof (Qfloor_le Y) as F1.
  assert (FN : (0 <= inject_Z (Qfloor Y))%Q).
  { change 0%Q with (inject_Z 0). apply inject_Z_le_iff. change 0 with (Qfloor (inject_Z 0)); apply Qfloor_resp_le; change (inject_Z 0) with 0%Q; exact Y0. }
  assert (FS : (inject_Z (Qfloor Y + 1) == inject_Z (Qfloor Y) + 1)%Q) by (rewrite inject_Z_plus; reflexivity).
  assert (Ex : (x == inject_Z (qsign x) * Qabs x)%Q).
  { destruct (Qtri x) as [Hx|[Hx|Hx]].
    - rewrite (qsign_pos x Hx), Qabs_pos by lra. change (inject_Z 1) with 1%Q. ring.
    - rewrite (qsign_zero x Hx), Hx. change (inject_Z 0) with 0%Q. ring.
    - rewrite (qsign_neg x Hx), Qabs_neg by lra. change (inject_Z (-1)) with (-1)%Q. ring. }
  assert (Sg : (Qabs (inject_Z (qsign x)) == 1)%Q).
  { destruct (Qtri x) as [Hx|[Hx|Hx]]; [rewrite (qsign_pos x Hx)|rewrite Hx in H1; change (Qabs 0) with 0%Q in H1; pose proof (qpow2_pos (e - 1)); lra|rewrite (qsign_neg x Hx)]; reflexivity. }
  assert (Ay : (Qabs y == V * u)%Q).
  { rewrite E, !Qabs_Qmult, Sg, (Qabs_pos V), (Qabs_pos u) by lra. ring. }
  split; [|split; [|split]].
  - rewrite E. rewrite Ex at 1. assert (Es : (inject_Z (qsign x) * Qabs x * (inject_Z (qsign x) * V * u) == (inject_Z (qsign x) * inject_Z (qsign x)) * (Qabs x * (V * u)))%Q) by ring.
    rewrite Es. pose proof (Qabs_nonneg x). apply Qmult_le_0_compat; [rewrite <- inject_Z_mult; change 0%Q with (inject_Z 0); apply inject_Z_le_iff; nia|].
    apply Qmult_le_0_compat; [assumption|]. apply Qmult_le_0_compat; lra.
  - rewrite Ay, <- EY. apply Qmult_le_compat_r; lra.
  - rewrite Ay, <- EY. assert (Y < V + 1)%Q by lra. nra.
  - intros z Ez. assert (YZ : (Y == inject_Z (Z.abs z))%Q).
    { apply (Qmult_inj_r _ _ u); [lra|]. rewrite EY, Ez, Qabs_Qmult, (Qabs_pos u) by lra. reflexivity. }
    assert (FZ : Qfloor Y = Z.abs z) by (rewrite (Qfloor_comp _ _ YZ); apply Qfloor_Z).
    assert (VY : (V == Y)%Q) by (rewrite FZ in C2; lra). rewrite E, VY, <- Qmult_assoc, EY. symmetry. exact Ex.
Qed.

(** ** Gradients *)
Lemma qsum_tab_add n f g : (qsum (tab n (fun i => f i + g i)) == qsum (tab n f) + qsum (tab n g))%Q.
Proof. induction n as [|n IH]; [cbn; ring|]. rewrite !tab_S, !qsum_app, IH. cbn [qsum]. ring. Qed.
Lemma qsum_tab_mul n f k : (qsum (tab n (fun i => k * f i)) == k * qsum (tab n f))%Q.
Proof. induction n as [|n IH]; [cbn; ring|]. rewrite !tab_S, !qsum_app, IH. cbn [qsum]. ring. Qed.
Lemma qsum_tab_zero n : (qsum (tab n (fun _ => 0)) == 0)%Q.
Proof. induction n as [|n IH]; [reflexivity|]. rewrite tab_S, qsum_app, IH. cbn [qsum]. ring. Qed.
Lemma qsum_tab_swap n m (f : nat -> nat -> Q) : (qsum (tab n (fun i => qsum (tab m (f i)))) == qsum (tab m (fun j => qsum (tab n (fun i => f i j)))))%Q.
Proof.
  induction n as [|n IH].
  - cbn [tab seq map qsum]. change (fun j : nat => qsum (tab 0 (fun i => f i j))) with (fun _ : nat => 0%Q). rewrite qsum_tab_zero. reflexivity.
  - rewrite tab_S, qsum_app, IH. cbn [qsum]. rewrite Qplus_0_r, <- qsum_tab_add. apply qsum_tab_ext. intros j _. rewrite tab_S, qsum_app. cbn [qsum]. ring.
Qed.

Lemma qdot_seq n x y : length x = n -> length y = n -> (qdot x y == qsum (tab n (fun i => nth i x 0 * nth i y 0)))%Q.
Proof. intros H1 H2. unfold qdot. rewrite (map2_seq _ n _ _ 0%Q 0%Q) by assumption. reflexivity. Qed.

Lemma qcol_nth r c m j i : qshape r c m -> (i < r)%nat -> nth i (qcol m j) 0%Q = qentry m i j.
Proof. intros [H _] Hi. unfold qcol. rewrite (map_nth_lt _ _ _ _ []) by lia. reflexivity. Qed.
Lemma qcol_length r c m j : qshape r c m -> length (qcol m j) = r.
Proof. intros [H _]. unfold qcol. rewrite map_length. exact H. Qed.

Lemma grad_input_entry B no n g weight b j : qshape B no g -> qshape no n weight -> (b < B)%nat -> (j < n)%nat ->
  (qentry (grad_input n g weight) b j == qsum (tab no (fun o => qentry g b o * qentry weight o j)))%Q.
Proof.
  intros Hg Hw Hb Hj. unfold grad_input, qentry at 1. rewrite (map_nth_lt _ _ _ _ []) by (destruct Hg; lia).
  change (map ?h (seq 0 n)) with (tab n h). rewrite tab_nth by exact Hj.
  rewrite (qdot_seq no) by (try (apply (qshape_row B no g b Hg Hb)); apply (qcol_length no n weight j Hw)).
  apply qsum_tab_ext. intros o Ho. rewrite (qcol_nth no n) by assumption. reflexivity.
Qed.
Lemma grad_weight_entry B no n g input o j : qshape B no g -> qshape B n input -> (o < no)%nat -> (j < n)%nat ->
  (qentry (grad_weight no n g input) o j == qsum (tab B (fun b => qentry g b o * qentry input b j)))%Q.
Proof.
  intros Hg Hi Ho Hj. unfold grad_weight, qentry at 1. change (map ?h (seq 0 no)) with (tab no h). rewrite tab_nth by exact Ho.
  change (map ?h (seq 0 n)) with (tab n h). rewrite tab_nth by exact Hj.
  rewrite (qdot_seq B) by (try (apply (qcol_length B no g o Hg)); apply (qcol_length B n input j Hi)).
  apply qsum_tab_ext. intros b Hb. rewrite (qcol_nth B no), (qcol_nth B n) by assumption. reflexivity.
Qed.
Lemma grad_bias_entry B no g o : qshape B no g -> (o < no)%nat -> (nth o (grad_bias no g) 0 == qsum (tab B (fun b => qentry g b o)))%Q.
Proof.
  intros Hg Ho. unfold grad_bias. change (map ?h (seq 0 no)) with (tab no h). rewrite tab_nth by exact Ho.
  rewrite (tab_of (qcol g o) 0%Q). rewrite (qcol_length B no g o Hg). apply qsum_tab_ext. intros b Hb. rewrite (qcol_nth B no) by assumption. reflexivity.
Qed.

Lemma inner_ext r c f f' g g' : (forall i j, (i < r)%nat -> (j < c)%nat -> (f i j == f' i j /\ g i j == g' i j)%Q) -> (inner r c f g == inner r c f' g')%Q.
Proof.
  intros H. unfold inner. apply (qsum_tab_ext r). intros i Hi. apply (qsum_tab_ext c). intros j Hj. destruct (H i j Hi Hj) as [E1 E2]. rewrite E1, E2. reflexivity.
Qed.

Theorem grad_adjoint : forall B n no g input weight,
  qshape B no g -> qshape B n input -> qshape no n weight ->
  let G := qentry g in let X := qentry input in let W := qentry weight in
  (forall bias dX, (inner B no G (fun b o => affine n (fun i j => X i j + dX i j) W bias b o - affine n X W bias b o)
                    == inner B n (qentry (grad_input n g weight)) dX)%Q) /\
  (forall bias dW, (inner B no G (fun b o => affine n X (fun i j => W i j + dW i j) bias b o - affine n X W bias b o)
                    == inner no n (qentry (grad_weight no n g input)) dW)%Q) /\
  (forall bias db, (inner B no G (fun b o => affine n X W (fun o => bias o + db o) b o - affine n X W bias b o)
                    == qsum (map (fun o => nth o (grad_bias no g) 0 * db o) (seq 0 no)))%Q).
Proof.
  intros B n no g input weight Hg Hi Hw G X W. split; [|split].
  - intros bias dX.
    transitivity (inner B no G (fun b o => qsum (tab n (fun j => dX b j * W o j)))%Q).
    { apply inner_ext. intros b o _ _. split; [reflexivity|]. unfold affine, dotq. change (map ?h (seq 0 n)) with (tab n h).
      rewrite (qsum_tab_ext n (fun i => ((X b i + dX b i) * W o i)%Q) (fun i => (X b i * W o i + dX b i * W o i)%Q)) by (intros; ring).
      rewrite qsum_tab_add. ring. }
    unfold inner. apply (qsum_tab_ext B). intros b Hb. change (map ?h (seq 0 no)) with (tab no h). change (map ?h (seq 0 n)) with (tab n h).
    transitivity (qsum (tab no (fun o => qsum (tab n (fun j => G b o * (dX b j * W o j)))))%Q).
    { apply qsum_tab_ext. intros o _. rewrite qsum_tab_mul. reflexivity. }
    rewrite qsum_tab_swap. apply qsum_tab_ext. intros j Hj. rewrite (grad_input_entry B no n g weight b j Hg Hw Hb Hj).
    rewrite Qmult_comm, <- qsum_tab_mul. apply qsum_tab_ext. intros o _. unfold G, W. ring.
  - intros bias dW.
    transitivity (inner B no G (fun b o => qsum (tab n (fun j => X b j * dW o j)))%Q).
    { apply inner_ext. intros b o _ _. split; [reflexivity|]. unfold affine, dotq. change (map ?h (seq 0 n)) with (tab n h).
      rewrite (qsum_tab_ext n (fun i => (X b i * (W o i + dW o i))%Q) (fun i => (X b i * W o i + X b i * dW o i)%Q)) by (intros; ring).
      rewrite qsum_tab_add. ring. }
    unfold inner. change (map ?h (seq 0 B)) with (tab B h).
    transitivity (qsum (tab no (fun o => qsum (tab B (fun b => G b o * qsum (tab n (fun j => X b j * dW o j))))))%Q); [apply qsum_tab_swap|].
    apply (qsum_tab_ext no). intros o Ho. change (map ?h (seq 0 n)) with (tab n h).
    transitivity (qsum (tab B (fun b => qsum (tab n (fun j => G b o * (X b j * dW o j)))))%Q).
    { apply qsum_tab_ext. intros b _. rewrite qsum_tab_mul. reflexivity. }
    rewrite qsum_tab_swap. apply qsum_tab_ext. intros j Hj. rewrite (grad_weight_entry B no n g input o j Hg Hi Ho Hj).
    rewrite Qmult_comm, <- qsum_tab_mul. apply qsum_tab_ext. intros b _. unfold G, X. ring.
  - intros bias db.
    transitivity (inner B no G (fun b o => db o)%Q).
    { apply inner_ext. intros b o _ _. split; [reflexivity|]. unfold affine. ring. }
    unfold inner. change (map ?h (seq 0 B)) with (tab B h). change (map (fun o => nth o (grad_bias no g) 0 * db o)%Q (seq 0 no)) with (tab no (fun o => nth o (grad_bias no g) 0 * db o)%Q).
    transitivity (qsum (tab no (fun o => qsum (tab B (fun b => G b o * db o))))%Q); [apply qsum_tab_swap|].
    apply qsum_tab_ext. intros o Ho. rewrite (grad_bias_entry B no g o Hg Ho). rewrite Qmult_comm, <- qsum_tab_mul. apply qsum_tab_ext. intros b _. unfold G. ring.
Qed.
