(** Proofs for C85. *)
From Coq Require Import String Lqa Qpower.
Require Import Verif.BaseLemmas Verif.AddProof Verif.UtilsModel Verif.UtilsProof Verif.LinearProof Verif.HubProof Verif.TlutProof Verif.HubErrProof Verif.ProgProof
  Verif.GenModel Verif.GenProof Verif.NameSpec Verif.NameProof Verif.NewSpec Verif.ProgSpec Verif.SatSpec Verif.SatProof Verif.SatMguProof Verif.RnnModel Verif.RnnProof Verif.MguModel Verif.MguProof Verif.CellSpec.
Open Scope Q_scope.

(** ** Small facts about absolute values and clamps *)
Lemma qmax_l a b : a <= qmax a b. Proof. unfold qmax. destruct (Qle_bool a b) eqn:E; [apply Qle_bool_iff, E|apply Qle_refl]. Qed.
Lemma qmax_r a b : b <= qmax a b.
Proof. unfold qmax. destruct (Qle_bool a b) eqn:E; [apply Qle_refl|]. destruct (Qlt_le_dec b a); [lra|]. apply Qle_bool_iff in q. congruence. Qed.
Lemma qle_false a b : Qle_bool a b = false -> b < a.
Proof. intros E. destruct (Qlt_le_dec b a) as [L|L]; [exact L|]. apply Qle_bool_iff in L. congruence. Qed.
Lemma clamp_near lo hi a b d : lo <= hi -> Qabs (a - b) <= d -> Qabs (qclamp lo hi a - qclamp lo hi b) <= d.
Proof.
  intros L H. apply Qabs_Qle_condition in H. apply Qabs_Qle_condition. unfold qclamp, qmin, qmax.
  destruct (Qle_bool a lo) eqn:E1; destruct (Qle_bool b lo) eqn:E2;
  match goal with |- context[Qle_bool ?x hi] => destruct (Qle_bool x hi) eqn:E3 end; try match goal with |- context[Qle_bool ?x hi] => destruct (Qle_bool x hi) eqn:E4 end;
  repeat match goal with E : Qle_bool _ _ = true |- _ => apply Qle_bool_iff in E | E : Qle_bool _ _ = false |- _ => apply qle_false in E end; lra.
Qed.
Lemma mul_abs a b x y : Qabs a <= x -> Qabs b <= y -> Qabs (a * b) <= x * y.
Proof.
  intros A B. rewrite Qabs_Qmult. pose proof (Qabs_nonneg a). pose proof (Qabs_nonneg b).
  apply Qle_trans with (x * Qabs b); [apply Qmult_le_compat_r; assumption|]. rewrite !(Qmult_comm x). apply Qmult_le_compat_r; [assumption|lra].
Qed.
Lemma abs3 a b c x y z : Qabs a <= x -> Qabs b <= y -> Qabs c <= z -> Qabs (a + b + c) <= x + y + z.
Proof. intros A B C. apply Qabs_Qle_condition in A, B, C. apply Qabs_Qle_condition. split; lra. Qed.
Lemma abs2 a b x y : Qabs a <= x -> Qabs b <= y -> Qabs (a + b) <= x + y.
Proof. intros A B. apply Qabs_Qle_condition in A, B. apply Qabs_Qle_condition. split; lra. Qed.
Lemma unit_abs v : in_unit v <-> Qabs v <= 1.
Proof. unfold in_unit. rewrite Qabs_Qle_condition. tauto. Qed.
Lemma half_near a b d : Qabs (a - b) <= d -> Qabs ((a + 1) / 2 - (b + 1) / 2) <= d / 2.
Proof.
  intros P. apply Qabs_Qle_condition in P. apply Qabs_Qle_condition.
  assert (E1 : (a + 1) / 2 - (b + 1) / 2 == (a - b) * (1 # 2)) by field. assert (E2 : d / 2 == d * (1 # 2)) by field. rewrite E1, E2. split; lra.
Qed.
(** The difference of two convex combinations. *)
Lemma convex_near f f' n n' h h' df dn dh : 0 <= f' <= 1 -> Qabs h <= 1 -> Qabs n <= 1 ->
  Qabs (f' - f) <= df -> Qabs (n' - n) <= dn -> Qabs (h' - h) <= dh ->
  Qabs ((n' - f' * n' + f' * h') - ((1 - f) * n + f * h)) <= qmax dh dn + 2 * df.
Proof.
  intros F H N DF DN DH.
  assert (E : (n' - f' * n' + f' * h') - ((1 - f) * n + f * h) == (1 - f') * (n' - n) + f' * (h' - h) + (f' - f) * (h - n)) by ring. rewrite E.
  pose proof (qmax_l dh dn). pose proof (qmax_r dh dn). set (m := qmax dh dn) in *. clearbody m.
  assert (A1 : Qabs ((1 - f') * (n' - n)) <= (1 - f') * m) by (apply mul_abs; [rewrite Qabs_pos; lra|lra]).
  assert (A2 : Qabs (f' * (h' - h)) <= f' * m) by (apply mul_abs; [rewrite Qabs_pos; lra|lra]).
  assert (A3 : Qabs ((f' - f) * (h - n)) <= df * 2).
  { apply mul_abs; [exact DF|]. apply Qabs_Qle_condition in H, N. apply Qabs_Qle_condition. split; lra. }
  eapply Qle_trans; [apply abs3; eassumption|]. lra.
Qed.

(** ** The exact step moves by at most its gain *)
Section Step.
  Variables (H I : nat) (wf wn : nat -> nat -> Q) (bf bn x : nat -> Q).
  Lemma forget_01 h o : 0 <= mgu_forget (fun v => v) H I wf bf h x o <= 1.
  Proof. unfold mgu_forget. apply clamp_01. Qed.
  Lemma new_in h o : Qabs (Spec.mgu_new (fun v => v) H I wf wn bf bn h x o) <= 1.
  Proof. apply (proj1 (unit_abs _)). unfold Spec.mgu_new. apply clamp_unit. Qed.
  Lemma dot_state w h h' d : apart H d h h' -> 0 <= d ->
    Qabs (dotq (H + I) (joined H h x) w - dotq (H + I) (joined H h' x) w) <= d * qsum (map (fun i => Qabs (w i)) (seq 0 H)).
  Proof.
    intros A D. unfold dotq. rewrite !seq_app, !map_app, !qsum_app. cbn [Nat.add].
    assert (T : forall (k : list nat), (forall i, In i k -> (H <= i)%nat) -> qsum (map (fun i => joined H h x i * w i) k) == qsum (map (fun i => joined H h' x i * w i) k)).
    { induction k as [|a k IH]; intros Hk; [reflexivity|]. cbn [map qsum]. rewrite IH by (intros i Hi; apply Hk; right; exact Hi).
      unfold joined at 1 3. destruct (Nat.ltb_spec a H); [pose proof (Hk a (or_introl eq_refl)); lia|reflexivity]. }
    rewrite (T (seq H I)) by (intros i Hi; apply in_seq in Hi; lia). clear T.
    assert (S : forall k, (forall i, In i k -> (i < H)%nat) ->
      Qabs (qsum (map (fun i => joined H h x i * w i) k) - qsum (map (fun i => joined H h' x i * w i) k)) <= d * qsum (map (fun i => Qabs (w i)) k)).
    { induction k as [|a k IH]; intros Hk; cbn [map qsum]; [rewrite Qabs_pos; lra|].
      specialize (IH (fun i Hi => Hk i (or_intror Hi))). pose proof (Hk a (or_introl eq_refl)) as Ha.
      assert (J : forall g, joined H g x a = g a) by (intros g; unfold joined; destruct (Nat.ltb_spec a H); [reflexivity|lia]). rewrite !J.
      assert (P : Qabs ((h a - h' a) * w a) <= d * Qabs (w a)) by (apply mul_abs; [apply A, Ha|apply Qle_refl]).
      eapply Qle_trans; [|eapply Qle_trans; [exact (abs2 _ _ _ _ P IH)|]]; [|lra]. apply Qle_lteq. right. apply Qabs_wd. ring. }
    eapply Qle_trans; [|apply (S (seq 0 H)); intros i Hi; apply in_seq in Hi; lia]. apply Qle_lteq. right. apply Qabs_wd. ring.
  Qed.
  Lemma forget_near h h' d af : apart H d h h' -> 0 <= d -> rows_within H H wf af -> forall o, (o < H)%nat ->
    Qabs (mgu_forget (fun v => v) H I wf bf h x o - mgu_forget (fun v => v) H I wf bf h' x o) <= d * af / 2.
  Proof.
    intros A D R o Ho. unfold mgu_forget. apply clamp_near; [lra|].
    pose proof (dot_state (wf o) h h' d A D) as P. specialize (R o Ho).
    assert (P1 : Qabs (dotq (H + I) (fun i => joined H h x i) (fun i => wf o i) + bf o - (dotq (H + I) (fun i => joined H h' x i) (fun i => wf o i) + bf o)) <= d * af).
    { eapply Qle_trans; [|apply Qle_trans with (d * qsum (map (fun i => Qabs (wf o i)) (seq 0 H))); [exact P|]].
      - apply Qle_lteq. right. apply Qabs_wd. ring_simplify. reflexivity.
      - rewrite !(Qmult_comm d). apply Qmult_le_compat_r; assumption. }
    apply half_near, clamp_near; [lra|exact P1].
  Qed.
  Lemma gated_near h h' d af : apart H d h h' -> 0 <= d -> rows_within H H wf af -> (forall i, (i < H)%nat -> in_unit (h' i)) ->
    apart H ((1 + af / 2) * d) (fun i => mgu_forget (fun v => v) H I wf bf h x i * h i) (fun i => mgu_forget (fun v => v) H I wf bf h' x i * h' i).
  Proof.
    intros A D R U i Hi. pose proof (forget_near h h' d af A D R i Hi) as F. specialize (A i Hi). specialize (U i Hi). apply (proj1 (unit_abs _)) in U.
    pose proof (forget_01 h i) as G. set (f := mgu_forget _ _ _ _ _ h _ _) in *. set (f' := mgu_forget _ _ _ _ _ h' _ _) in *. clearbody f f'.
    assert (E : f * h i - f' * h' i == f * (h i - h' i) + (f - f') * h' i) by ring. rewrite E.
    assert (P1 : Qabs (f * (h i - h' i)) <= 1 * d) by (apply mul_abs; [rewrite Qabs_pos; lra|exact A]).
    pose proof (mul_abs _ _ _ _ F U) as P2. eapply Qle_trans; [exact (abs2 _ _ _ _ P1 P2)|].
    assert (E2 : (1 + af / 2) * d == 1 * d + d * af / 2 * 1) by field. rewrite E2. apply Qle_refl.
  Qed.
  Lemma new_near h h' d af an : apart H d h h' -> 0 <= d -> 0 <= af -> rows_within H H wf af -> rows_within H H wn an -> (forall i, (i < H)%nat -> in_unit (h' i)) ->
    forall o, (o < H)%nat -> Qabs (Spec.mgu_new (fun v => v) H I wf wn bf bn h x o - Spec.mgu_new (fun v => v) H I wf wn bf bn h' x o) <= an * (1 + af / 2) * d.
  Proof.
    intros A D F0 Rf Rn U o Ho. unfold Spec.mgu_new. apply clamp_near; [lra|]. pose proof (gated_near h h' d af A D Rf U) as G.
    assert (D2 : 0 <= (1 + af / 2) * d). { apply Qmult_le_0_compat; [|exact D]. assert (af / 2 == af * (1 # 2)) by field. lra. }
    pose proof (dot_state (wn o) _ _ _ G D2) as P. specialize (Rn o Ho).
    eapply Qle_trans; [|eapply Qle_trans; [exact P|]].
    - apply Qle_lteq. right. apply Qabs_wd. ring_simplify. reflexivity.
    - assert (E : an * (1 + af / 2) * d == an * ((1 + af / 2) * d)) by ring. rewrite E. rewrite (Qmult_comm _ (qsum _)). apply Qmult_le_compat_r; assumption.
  Qed.
  Theorem next_near h h' d af an : apart H d h h' -> 0 <= d -> 0 <= af -> rows_within H H wf af -> rows_within H H wn an -> (forall i, (i < H)%nat -> in_unit (h' i)) ->
    apart H (cell_gain af an * d) (Spec.mgu_next H I wf wn bf bn h x) (Spec.mgu_next H I wf wn bf bn h' x).
  Proof.
    intros A D F0 Rf Rn U o Ho. pose proof (forget_near h h' d af A D Rf o Ho) as F. pose proof (new_near h h' d af an A D F0 Rf Rn U o Ho) as N.
    unfold Spec.mgu_next. cbv zeta. pose proof (forget_01 h o) as G. pose proof (new_in h' o) as NI.
    specialize (A o Ho). specialize (U o Ho). apply (proj1 (unit_abs _)) in U.
    set (f := mgu_forget _ _ _ _ _ h _ _) in *. set (f' := mgu_forget _ _ _ _ _ h' _ _) in *. set (n := Spec.mgu_new _ _ _ _ _ _ _ h _ _) in *. set (n' := Spec.mgu_new _ _ _ _ _ _ _ h' _ _) in *.
    clearbody f f' n n'. pose proof (convex_near f' f n' n (h' o) (h o) _ _ _ G U NI F N A) as C.
    assert (E : (1 - f) * n + f * h o - ((1 - f') * n' + f' * h' o) == n - f * n + f * h o - ((1 - f') * n' + f' * h' o)) by ring. rewrite E.
    eapply Qle_trans; [exact C|]. unfold cell_gain. set (k := an * (1 + af / 2)). clearbody k.
    assert (M : qmax d (k * d) <= qmax 1 k * d).
    { pose proof (qmax_l 1 k). pose proof (qmax_r 1 k). unfold qmax at 1. destruct (Qle_bool d (k * d)); [apply Qmult_le_compat_r; assumption|].
      apply Qle_trans with (1 * d); [lra|]. apply Qmult_le_compat_r; assumption. }
    assert (E2 : 2 * (d * af / 2) == af * d) by field. rewrite E2. lra.
  Qed.
End Step.

(** ** Sequences *)
Lemma growth_nonneg L t : 0 <= L -> 0 <= growth L t.
Proof. intros HL. induction t; cbn [growth]; [lra|]. assert (0 <= L * growth L t) by (apply Qmult_le_0_compat; assumption). lra. Qed.
(** The same sum, read from the other end: e more at every step. *)
Lemma growth_app L t : growth L (S t) == growth L t + Qpower L (Z.of_nat t).
Proof.
  induction t; [cbn; lra|]. change (1 + L * growth L (S t) == 1 + L * growth L t + Qpower L (Z.of_nat (S t))). rewrite IHt.
  assert (E : Qpower L (Z.of_nat (S t)) == L * Qpower L (Z.of_nat t)).
  { rewrite Nat2Z.inj_succ. unfold Z.succ. destruct (Qeq_dec L 0) as [Z0|NZ]; [|rewrite Qpower_plus by exact NZ; change (Qpower L 1) with L; ring].
    rewrite Z0. rewrite Qpower_0 by lia. ring. }
  rewrite E. ring.
Qed.
Lemma gain_ge1 af an : 0 <= af -> 1 <= cell_gain af an.
Proof. intros. unfold cell_gain. pose proof (qmax_l 1 (an * (1 + af / 2))). lra. Qed.


(** A run that stays within e of the exact step at every call. *)
Section Drift.
  Variables (B H I : nat) (p : mgu_par).
  Let next := Spec.mgu_next H I (qentry (mg_wf p)) (qentry (mg_wn p)) (bias_entry (mg_bf p)) (bias_entry (mg_bn p)).
  Fixpoint follows (e : Q) (hx : option (list (list Q))) (inputs ys : list (list (list Q))) : Prop :=
    match inputs, ys with
    | [], [] => True
    | x :: xs, y :: ys => (unit_state B H (Some y) /\ forall b, (b < B)%nat -> apart H e (qentry y b) (next (state_entry hx b) (qentry x b))) /\ follows e (Some y) xs ys
    | _, _ => False
    end.
  Lemma drift e af an : mgu_par_ok H I p -> 0 <= e -> 0 <= af -> rows_within H H (qentry (mg_wf p)) af -> rows_within H H (qentry (mg_wn p)) an ->
    forall inputs ys hx hx' d, 0 <= d -> Forall (qshape B I) inputs -> unit_state B H hx -> unit_state B H hx' ->
    (forall b, (b < B)%nat -> apart H d (state_entry hx b) (state_entry hx' b)) -> follows e hx inputs ys ->
    length ys = length inputs /\
    forall t, (t < length inputs)%nat -> exists v, nth_error (outs (cell_step (hardmgu_forward H p)) hx' inputs) t = Some v /\ qshape B H (mv_hy v) /\
      forall b o, (b < B)%nat -> (o < H)%nat ->
      Qabs (qentry (nth t ys []) b o - qentry (mv_hy v) b o) <= e * growth (cell_gain af an) (S t) + Qpower (cell_gain af an) (Z.of_nat (S t)) * d.
  Proof.
    intros Hp E0 F0 Rf Rn. set (L := cell_gain af an). assert (L1 : 1 <= L) by (apply gain_ge1; exact F0).
    induction inputs as [|x inputs IH]; intros [|y ys] hx hx' d D0 Si Hu Hu' A Fo; cbn [follows] in Fo; try contradiction; [split; [reflexivity|cbn; intros; lia]|].
    destruct Fo as [[Uy Ay] Fo]. pose proof (Forall_inv Si) as Sx. apply Forall_inv_tail in Si.
    assert (Sh : match hx' with Some h => qshape B H h | None => True end) by (destruct hx'; [apply Hu'|exact Logic.I]).
    destruct (mgu_values B H I p x hx' Hp Sx Sh (fun b o => unit_state_entry B H hx' b o Hu')) as [Sv V]. cbn zeta in Sv, V.
    set (v := hardmgu_forward H p x hx') in *.
    assert (Ef : fst (cell_step (hardmgu_forward H p) hx' x) = Some (mv_hy v)) by reflexivity.
    assert (Es : snd (cell_step (hardmgu_forward H p) hx' x) = v) by reflexivity.
    assert (Uv : unit_state B H (Some (mv_hy v))) by (split; [exact Sv|]; intros b o Hb Ho; apply (V b o Hb Ho)).
    assert (A1 : forall b, (b < B)%nat -> apart H (L * d + e) (state_entry (Some y) b) (state_entry (Some (mv_hy v)) b)).
    { intros b Hb o Ho. cbn [state_entry]. pose proof (Ay b Hb o Ho) as P1. destruct (V b o Hb Ho) as (_ & _ & _ & _ & _ & _ & _ & _ & Ev & _). rewrite Ev.
      pose proof (next_near H I (qentry (mg_wf p)) (qentry (mg_wn p)) (bias_entry (mg_bf p)) (bias_entry (mg_bn p)) (qentry x b) (state_entry hx b) (state_entry hx' b) d af an
        (A b Hb) D0 F0 Rf Rn (fun i Hi => unit_state_entry B H hx' b i Hu' Hb Hi) o Ho) as P2. fold L in P2.
      eapply Qle_trans; [|exact (abs2 _ _ _ _ P2 P1)]. apply Qle_lteq. right. apply Qabs_wd. unfold next. ring. }
    assert (LD : 0 <= L * d) by (apply Qmult_le_0_compat; lra).
    destruct (IH ys (Some y) (Some (mv_hy v)) (L * d + e) ltac:(lra) Si Uy Uv A1 Fo) as [Ly R]. split; [cbn [length]; rewrite Ly; reflexivity|].
    intros t Ht. rewrite outs_cons, Ef, Es. destruct t as [|t].
    - exists v. split; [reflexivity|]. split; [exact Sv|]. intros b o Hb Ho. cbn [nth]. eapply Qle_trans; [exact (A1 b Hb o Ho)|].
      cbn [growth Z.of_nat Qpower Qpower_positive]. cbn. lra.
    - cbn [length] in Ht. destruct (R t ltac:(lia)) as (w & N & Sw & W). exists w. split; [exact N|]. split; [exact Sw|]. intros b o Hb Ho. cbn [nth].
      eapply Qle_trans; [exact (W b o Hb Ho)|]. apply Qle_lteq. right. rewrite (growth_app L (S t)).
      assert (EP : Qpower L (Z.of_nat (S (S t))) == L * Qpower L (Z.of_nat (S t))).
      { rewrite (Nat2Z.inj_succ (S t)). unfold Z.succ. rewrite Qpower_plus by lra. change (Qpower L 1) with L. ring. }
      rewrite EP. ring.
  Qed.
  Lemma exact_follows inputs : mgu_par_ok H I p -> forall hx, Forall (qshape B I) inputs -> unit_state B H hx ->
    follows 0 hx inputs (map mv_hy (outs (cell_step (hardmgu_forward H p)) hx inputs)).
  Proof.
    intros Hp. induction inputs as [|x inputs IH]; intros hx Si Hu; [exact Logic.I|].
    pose proof (Forall_inv Si) as Sx. apply Forall_inv_tail in Si.
    assert (Sh : match hx with Some h => qshape B H h | None => True end) by (destruct hx; [apply Hu|exact Logic.I]).
    destruct (mgu_values B H I p x hx Hp Sx Sh (fun b o => unit_state_entry B H hx b o Hu)) as [Sv V]. cbn zeta in Sv, V.
    rewrite outs_cons. set (v := hardmgu_forward H p x hx) in *.
    assert (Ef : fst (cell_step (hardmgu_forward H p) hx x) = Some (mv_hy v)) by reflexivity.
    assert (Es : snd (cell_step (hardmgu_forward H p) hx x) = v) by reflexivity. rewrite Ef, Es. cbn [map follows].
    assert (Uv : unit_state B H (Some (mv_hy v))) by (split; [exact Sv|]; intros b o Hb Ho; apply (V b o Hb Ho)).
    split; [|apply IH; assumption]. split; [exact Uv|]. intros b Hb o Ho. destruct (V b o Hb Ho) as (_ & _ & _ & _ & _ & _ & _ & _ & Ev & _).
    rewrite Ev. unfold next. setoid_replace (Spec.mgu_next H I (qentry (mg_wf p)) (qentry (mg_wn p)) (bias_entry (mg_bf p)) (bias_entry (mg_bn p)) (state_entry hx b) (qentry x b) o -
      Spec.mgu_next H I (qentry (mg_wf p)) (qentry (mg_wn p)) (bias_entry (mg_bf p)) (bias_entry (mg_bn p)) (state_entry hx b) (qentry x b) o) with 0 by ring. rewrite Qabs_pos; lra.
  Qed.
End Drift.

(** HardMGUCell from two states. *)
Theorem cell_state : forall B H I p af an hx hx' inputs d, mgu_par_ok H I p -> 0 <= af -> rows_within H H (qentry (mg_wf p)) af -> rows_within H H (qentry (mg_wn p)) an ->
  Forall (qshape B I) inputs -> unit_state B H hx -> unit_state B H hx' -> 0 <= d -> (forall b, (b < B)%nat -> apart H d (state_entry hx b) (state_entry hx' b)) ->
  forall t, (t < length inputs)%nat -> exists v v', nth_error (outs (cell_step (hardmgu_forward H p)) hx inputs) t = Some v /\
    nth_error (outs (cell_step (hardmgu_forward H p)) hx' inputs) t = Some v' /\
    forall b, (b < B)%nat -> apart H (Qpower (cell_gain af an) (Z.of_nat (S t)) * d) (qentry (mv_hy v) b) (qentry (mv_hy v') b).
Proof.
  intros B H I p af an hx hx' inputs d Hp F0 Rf Rn Si Hu Hu' D0 A t Ht.
  destruct (drift B H I p 0 af an Hp ltac:(lra) F0 Rf Rn inputs _ hx hx' d D0 Si Hu Hu' A (exact_follows B H I p inputs Hp hx Si Hu)) as [_ R].
  destruct (R t Ht) as (v' & N' & _ & W). destruct (mgu_sequence B H I p hx inputs Hp Hu Si t Ht) as (v & N & _). exists v, v'. split; [exact N|]. split; [exact N'|].
  intros b Hb o Ho. specialize (W b o Hb Ho).
  rewrite (nth_error_nth _ _ [] (map_nth_error mv_hy _ _ N)) in W. lra.
Qed.

(** The budget of the unary cell is not negative. *)
Lemma budget_nonneg n w wm q K : 0 <= n -> 0 <= q -> 0 <= K -> 0 <= y_q n w wm q K /\ 0 <= y_K n w wm K.
Proof.
  intros N0 Q0 K0. pose proof (grid_step_pos Bipolar w) as GP. set (g := grid_step Bipolar w) in *.
  assert (W0 : forall k : nat, 0 <= inject_Z (Z.of_nat k)) by (intros k; change 0 with (inject_Z 0); rewrite <- Zle_Qle; lia).
  pose proof (W0 w) as W1. pose proof (W0 wm) as W2.
  assert (P : 0 < Qpower 2 (Z.of_nat wm)) by (apply Qpower_0_lt; lra).
  assert (H2 : forall a, a / 2 == a * (1 # 2)) by (intros; field).
  assert (GQ : forall a, 0 <= a -> 0 <= gate_q n w a).
  { intros a A. unfold gate_q. fold g. apply Qmult_le_0_compat; [exact N0|]. rewrite H2. lra. }
  assert (GK : forall a, 0 <= a -> 0 <= gate_K n w a).
  { intros a A. unfold gate_K. assert (0 <= n * (a + 4 * inject_Z (Z.of_nat w))) by (apply Qmult_le_0_compat; lra). lra. }
  assert (FQ : 0 <= f_q n w q) by (unfold f_q; rewrite H2; pose proof (GQ q Q0); lra).
  assert (FK : 0 <= f_K n w K) by (unfold f_K; rewrite H2; pose proof (GK K K0); lra).
  assert (HQ : 0 <= h_q n w q) by (unfold h_q; fold g; rewrite H2; lra).
  assert (HK : 0 <= h_K n w K) by (unfold h_K; lra).
  pose proof (GQ _ HQ) as NQ. pose proof (GK _ HK) as NK. fold (g_q n w q) in NQ. fold (g_K n w K) in NK.
  assert (X : 0 <= 2 * g_K n w K / Qpower 2 (Z.of_nat wm)) by (apply Qle_shift_div_l; [exact P|]; lra).
  unfold y_q, y_K, p_q, p_K. split; lra.
Qed.
(** HUBMGUCell over a sequence. *)
Theorem hub_sequence : forall ext I H bias wf bf wn bn w mn depth wm rn dimr af an B hx inputs,
  lower mn = "bipolar"%string -> named rn ["sobol"%string; "rc"%string] -> (1 <= w <= 30)%nat -> (wm <= 30)%nat ->
  (forall k, (k < 6)%nat -> dirvec_ok 30 (ext_dirvec (ext k) dimr)) -> mgu_args_ok I H bias wf wn bf bn ->
  Forall (Forall (src_ok Bipolar)) wf -> src_opt Bipolar bf -> Forall (Forall (src_ok Bipolar)) wn -> src_opt Bipolar bn ->
  0 <= af -> rows_within H H (qentry wf) af -> rows_within H H (qentry wn) an ->
  (1 <= B)%nat -> Forall (fun x => qshape B I x /\ Forall (Forall (src_ok Bipolar)) x) inputs -> unit_state B H hx ->
  let n := inject_Z (Z.of_nat (H + I) + b2z bias) in let q := grid_step Bipolar w / 2 in let K := 2 * inject_Z (Z.of_nat w) in
  g_K n w K + p_K n w wm K + h_K n w K + 2 <= Qpower 2 (depth - 2) ->
  let par := {| mg_wf := wf; mg_bf := if bias then bf else None; mg_wn := wn; mg_bn := if bias then bn else None |} in
  exists ys, outputs (run_r (fun hx x => bind (hubmgu ext I H bias (Some wf) bf (Some wn) bn w mn depth wm rn dimr x hx) (fun y => Ok (Some y, y))) hx inputs) = Some ys /\
  List.length ys = List.length inputs /\
  forall t, (t < List.length inputs)%nat -> exists v, nth_error (outs (cell_step (hardmgu_forward H par)) hx inputs) t = Some v /\
    forall b, (b < B)%nat -> apart H ((y_q n w wm q K + 2 * y_K n w wm K / Qpower 2 (Z.of_nat w)) * growth (cell_gain af an) (S t)) (qentry (nth t ys []) b) (qentry (mv_hy v) b).
Proof.
  intros ext I H bias wf bf wn bn w mn depth wm rn dimr af an B hx inputs Hm Hr Hw Hwm HV Ha Wf Bf Wn Bn F0 Rf Rn HB Hin Hu n q K Hd par.
  set (e := y_q n w wm q K + 2 * y_K n w wm K / Qpower 2 (Z.of_nat w)). pose proof (proj1 (rng_names rn) Hr) as Hk.
  assert (PO : mgu_par_ok H I par).
  { destruct Ha as (A1 & A2 & A3).
    assert (BO : forall be, (bias = true -> exists f, be = Some f /\ List.length f = H) -> bias_ok H (if bias then be else None)).
    { intros be X. destruct bias; [|exact Logic.I]. destruct (X eq_refl) as (f & -> & L). exact L. }
    unfold mgu_par_ok, par. cbn [mg_wf mg_bf mg_wn mg_bn]. split; [exact (shape2_spec _ _ _ A1)|]. split; [apply BO; intros E; destruct (A3 E) as (f & g & ? & ? & ? & ?); eauto|].
    split; [exact (shape2_spec _ _ _ A2)|]. apply BO; intros E; destruct (A3 E) as (f & g & ? & ? & ? & ?); eauto. }
  set (step := fun hx x => bind (hubmgu ext I H bias (Some wf) bf (Some wn) bn w mn depth wm rn dimr x hx) (fun y => Ok (Some y, y))).
  assert (One : forall hx x, qshape B I x /\ Forall (Forall (src_ok Bipolar)) x -> unit_state B H hx -> exists y, step hx x = Ok (Some y, y) /\ unit_state B H (Some y) /\
    forall b, (b < B)%nat -> apart H e (qentry y b) (Spec.mgu_next H I (qentry (mg_wf par)) (qentry (mg_wn par)) (bias_entry (mg_bf par)) (bias_entry (mg_bn par)) (state_entry hx b) (qentry x b))).
  { clear Hu hx. intros hx x [Sx Ox] Hu. assert (LB : List.length x = B) by apply Sx.
    assert (Hh1 : match hx with None => True | Some h => qshape (List.length x) H h end) by (rewrite LB; destruct hx; [apply Hu|exact Logic.I]).
    destruct (hubmgu_value ext I H bias wf bf wn bn w mn depth wm rn dimr KSobol x hx Hm Hk eq_refl Ha ltac:(lia) ltac:(rewrite LB; exact Sx) Hh1) as (c & calls & os & y & _ & _ & _ & _ & _ & _ & Ey & Sy & V).
    assert (Hh2 : match hx with None => True | Some h => qshape (List.length x) H h /\ Forall (Forall (src_ok Bipolar)) h end).
    { rewrite LB. destruct hx as [h|]; [|exact Logic.I]. destruct Hu as [S U]. split; [exact S|]. apply (entries_all _ B H); [exact S|]. exact U. }
    destruct (hubmgu_error ext I H bias wf bf wn bn w mn depth wm rn dimr x hx Hm Hr Hw Hwm HV Ha Wf Bf Wn Bn ltac:(lia) ltac:(rewrite LB; exact Sx) Ox Hh2 Hd) as (y' & Ey' & _ & Er).
    rewrite Ey in Ey'. injection Ey' as <-. rewrite LB in *. exists y. unfold step. rewrite Ey. split; [reflexivity|]. split; [split; [exact Sy|intros b o Hb Ho; apply (V b o Hb Ho)]|].
    intros b Hb o Ho. specialize (Er b o Hb Ho). fold n q K e par in Er.
    destruct (mgu_values B H I par x hx PO Sx Hh1 (fun b o => unit_state_entry B H hx b o Hu)) as [_ MV]. destruct (MV b o Hb Ho) as (_ & _ & _ & _ & _ & _ & _ & _ & MY & _).
    rewrite MY in Er. exact Er. }
  assert (Run : exists ys, outputs (run_r step hx inputs) = Some ys /\ follows B H I par e hx inputs ys).
  { revert hx Hu. induction Hin as [|x inputs Hx Hin IH]; intros hx Hu; [exists []; split; [reflexivity|exact Logic.I]|].
    destruct (One hx x Hx Hu) as (y & Es & Uy & Ay). destruct (IH (Some y) Uy) as (ys & Er & Fo). exists (y :: ys). cbn [run_r]. rewrite Es.
    unfold outputs in *. destruct (run_r step (Some y) inputs) as [[s os]|]; [|discriminate]. cbn in Er |- *. injection Er as ->. split; [reflexivity|].
    cbn [follows]. split; [split; assumption|exact Fo]. }
  destruct Run as (ys & Eo & Fo). exists ys. split; [exact Eo|].
  assert (S2 : Forall (qshape B I) inputs) by (eapply Forall_impl; [|exact Hin]; intros x [X _]; exact X).
  assert (E0 : 0 <= e).
  { unfold e. pose proof (grid_step_pos Bipolar w) as GP. assert (Q0 : 0 <= q) by (unfold q; apply Qle_shift_div_l; lra).
    assert (W0 : forall k : nat, 0 <= inject_Z (Z.of_nat k)) by (intros k; change 0 with (inject_Z 0); rewrite <- Zle_Qle; lia). pose proof (W0 w) as W1.
    assert (K0 : 0 <= K) by (unfold K; lra).
    assert (N0 : 0 <= n) by (unfold n; change 0 with (inject_Z 0); rewrite <- Zle_Qle; destruct bias; cbn [b2z]; lia).
    destruct (budget_nonneg n w wm q K N0 Q0 K0) as [Y1 Y2].
    assert (P : 0 < Qpower 2 (Z.of_nat w)) by (apply Qpower_0_lt; lra).
    assert (0 <= 2 * y_K n w wm K / Qpower 2 (Z.of_nat w)) by (apply Qle_shift_div_l; [exact P|]; lra). lra. }
  destruct (drift B H I par e af an PO E0 F0 Rf Rn inputs ys hx hx 0 ltac:(lra) S2 Hu Hu) as [Ly R]; [|exact Fo|].
  { intros b Hb o Ho. setoid_replace (state_entry hx b o - state_entry hx b o) with 0 by ring. rewrite Qabs_pos; lra. }
  split; [exact Ly|]. intros t Ht. destruct (R t Ht) as (v & N & _ & W). exists v. split; [exact N|]. intros b Hb o Ho. specialize (W b o Hb Ho). lra.
Qed.

(** ** The quantised cell against the exact one *)
Lemma dot_rows n x x' w w' dx dy R : 0 <= dx -> 0 <= dy -> (forall i, (i < n)%nat -> Qabs (x' i) <= 1) -> qsum (map (fun i => Qabs (w' i)) (seq 0 n)) <= R ->
  (forall i, (i < n)%nat -> Qabs (x i - x' i) <= dx) -> (forall i, (i < n)%nat -> Qabs (w i - w' i) <= dy) ->
  Qabs (dotq n x w - dotq n x' w') <= dx * R + inject_Z (Z.of_nat n) * (1 + dx) * dy.
Proof.
  intros D0 Y0 X R0 Hx Hw. eapply Qle_trans.
  - apply (dot_error n x' x w' w dx dy D0); intros i Hi; rewrite Qabs_Qminus; [apply Hx|apply Hw]; exact Hi.
  - assert (S : forall m, (m <= n)%nat -> qsum (map (fun i => dx * Qabs (w' i) + (Qabs (x' i) + dx) * dy) (seq 0 m)) <= dx * qsum (map (fun i => Qabs (w' i)) (seq 0 m)) + inject_Z (Z.of_nat m) * (1 + dx) * dy).
    { induction m as [|m IH]; intros Hm; [cbn [seq map qsum]; change (inject_Z (Z.of_nat 0)) with 0; lra|]. specialize (IH ltac:(lia)). rewrite !seq_S, !map_app, !qsum_app. cbn [map qsum Nat.add].
      rewrite Nat2Z.inj_succ. unfold Z.succ. rewrite inject_Z_plus. specialize (X m ltac:(lia)).
      assert (P : (Qabs (x' m) + dx) * dy <= (1 + dx) * dy) by (apply Qmult_le_compat_r; [lra|exact Y0]). change (inject_Z 1) with 1.
      set (k := inject_Z (Z.of_nat m)) in *. clearbody k. lra. }
    eapply Qle_trans; [apply S, Nat.le_refl|]. assert (dx * qsum (map (fun i => Qabs (w' i)) (seq 0 n)) <= dx * R) by (rewrite !(Qmult_comm dx); apply Qmult_le_compat_r; assumption). lra.
Qed.
Section Quant.
  Variables (q : Q -> Q) (u M : Q).
  Hypothesis U0 : 0 <= u.
  Hypothesis M1 : 1 <= M.
  Hypothesis Qnear : forall v, Qabs v <= M -> Qabs (q v - v) <= u.
  Hypothesis Q01 : forall v, 0 <= v <= 1 -> 0 <= q v <= 1.
  Hypothesis Qunit : forall v, Qabs v <= 1 -> Qabs (q v) <= 1.
  Hypothesis Qclamp : forall v, Qabs (qclamp (-1) 1 (q v) - qclamp (-1) 1 v) <= u.
  Variables (H I : nat) (wf wn : nat -> nat -> Q) (bf bn h x : nat -> Q) (Rf Rn : Q).
  Let N := inject_Z (Z.of_nat (H + I)).
  Hypothesis Wf : forall o i, (o < H)%nat -> (i < H + I)%nat -> Qabs (wf o i) <= M.
  Hypothesis Wn : forall o i, (o < H)%nat -> (i < H + I)%nat -> Qabs (wn o i) <= M.
  Hypothesis Bf : forall o, (o < H)%nat -> Qabs (bf o) <= M.
  Hypothesis Bn : forall o, (o < H)%nat -> Qabs (bn o) <= M.
  Hypothesis Hh : forall i, (i < H)%nat -> Qabs (h i) <= 1.
  Hypothesis Hx : forall i, (i < I)%nat -> Qabs (x i) <= 1.
  Hypothesis Hf : rows_within H (H + I) wf Rf.
  Hypothesis Hn : rows_within H (H + I) wn Rn.
  Lemma near1 v : Qabs v <= 1 -> Qabs (q v - v) <= u. Proof. intros. apply Qnear. lra. Qed.
  Lemma joined_all (P : Q -> Prop) g y : (forall i, (i < H)%nat -> P (g i)) -> (forall i, (i < I)%nat -> P (y i)) -> forall i, (i < H + I)%nat -> P (joined H g y i).
  Proof. intros A B i Hi. unfold joined. destruct (Nat.ltb_spec i H); [apply A|apply B]; lia. Qed.
  Lemma joined_near g g' y y' d : 0 <= d -> (forall i, (i < H)%nat -> Qabs (g i - g' i) <= d) -> (forall i, (i < I)%nat -> Qabs (y i - y' i) <= d) ->
    forall i, (i < H + I)%nat -> Qabs (joined H g y i - joined H g' y' i) <= d.
  Proof. intros D A B i Hi. unfold joined. destruct (Nat.ltb_spec i H); [apply A|apply B]; lia. Qed.
  Lemma quant_forget o : (o < H)%nat ->
    0 <= mgu_forget q H I wf bf h x o <= 1 /\ Qabs (mgu_forget q H I wf bf h x o - mgu_forget (fun v => v) H I wf bf h x o) <= fxp_gate u N Rf.
  Proof.
    intros Ho. unfold mgu_forget. set (S := dotq (H + I) (fun i => q (joined H h x i)) (fun i => q (wf o i)) + q (bf o)).
    set (T := dotq (H + I) (fun i => joined H h x i) (fun i => wf o i) + bf o).
    assert (J1 : forall i, (i < H + I)%nat -> Qabs (joined H h x i) <= 1) by exact (joined_all (fun v => Qabs v <= 1) h x Hh Hx).
    assert (D : Qabs (S - T) <= u * Rf + N * (1 + u) * u + u).
    { unfold S, T. assert (P := dot_rows (H + I) (fun i => q (joined H h x i)) (fun i => joined H h x i) (fun i => q (wf o i)) (fun i => wf o i) u u Rf U0 U0 J1 (Hf o Ho)
        (fun i Hi => near1 _ (J1 i Hi)) (fun i Hi => Qnear _ (Wf o i Ho Hi))).
      eapply Qle_trans; [|exact (abs2 _ _ _ _ P (Qnear _ (Bf o Ho)))]. apply Qle_lteq. right. apply Qabs_wd. ring. }
    apply (clamp_near (-1) 1) in D; [|lra]. pose proof (clamp_unit S) as CS. set (a := qclamp (-1) 1 S) in *. set (b := qclamp (-1) 1 T) in *. clearbody a b.
    pose proof (near1 a ltac:(apply Qabs_Qle_condition; lra)) as A.
    assert (D2 : Qabs (q a - b) <= u * Rf + N * (1 + u) * u + u + u) by (eapply Qle_trans; [|exact (abs2 _ _ _ _ D A)]; apply Qle_lteq; right; apply Qabs_wd; ring).
    apply half_near in D2. apply (clamp_near 0 1) in D2; [|lra]. pose proof (clamp_01 ((q a + 1) / 2)) as C0.
    set (c := qclamp 0 1 ((q a + 1) / 2)) in *. clearbody c. split; [apply Q01; exact C0|].
    pose proof (near1 c ltac:(apply Qabs_Qle_condition; lra)) as C. unfold fxp_gate. eapply Qle_trans; [|exact (abs2 _ _ _ _ D2 C)]. apply Qle_lteq. right. apply Qabs_wd. ring.
  Qed.
  Lemma quant_gated o : (o < H)%nat ->
    Qabs (q (mgu_forget q H I wf bf h x o * q (h o)) - mgu_forget (fun v => v) H I wf bf h x o * h o) <= fxp_gate u N Rf + u + u.
  Proof.
    intros Ho. destruct (quant_forget o Ho) as [F D]. set (f' := mgu_forget q H I wf bf h x o) in *. set (f := mgu_forget (fun v => v) H I wf bf h x o) in *. clearbody f f'.
    pose proof (Hh o Ho) as Ho'. pose proof (near1 _ Ho') as P1. pose proof (Qunit _ Ho') as P2.
    assert (P3 : Qabs (f' * q (h o)) <= 1 * 1) by (apply mul_abs; [rewrite Qabs_pos; lra|exact P2]). rewrite Qmult_1_l in P3. apply near1 in P3.
    assert (P4 : Qabs (f' * (q (h o) - h o)) <= 1 * u) by (apply mul_abs; [rewrite Qabs_pos; lra|exact P1]).
    pose proof (mul_abs _ _ _ _ D Ho') as P5. eapply Qle_trans; [|eapply Qle_trans; [exact (abs3 _ _ _ _ _ _ P3 P4 P5)|lra]]. apply Qle_lteq. right. apply Qabs_wd. ring.
  Qed.
  Lemma gate_nonneg : (0 < H)%nat -> 0 <= fxp_gate u N Rf.
  Proof. intros H0. destruct (quant_forget 0%nat H0) as [_ D]. eapply Qle_trans; [apply Qabs_nonneg|exact D]. Qed.
  Lemma quant_new o : (o < H)%nat ->
    Qabs (Spec.mgu_new q H I wf wn bf bn h x o) <= 1 /\ Qabs (Spec.mgu_new q H I wf wn bf bn h x o - Spec.mgu_new (fun v => v) H I wf wn bf bn h x o) <= fxp_new u N Rf Rn.
  Proof.
    intros Ho. pose proof (gate_nonneg ltac:(lia)) as G0. unfold Spec.mgu_new.
    set (g' := fun i => q (mgu_forget q H I wf bf h x i * q (h i))). set (g := fun i => mgu_forget (fun v => v) H I wf bf h x i * h i).
    assert (A : forall i, (i < H + I)%nat -> Qabs (joined H g' (fun i => q (x i)) i - joined H g (fun i => x i) i) <= fxp_gate u N Rf + u + u).
    { apply joined_near; [lra|intros i Hi; apply quant_gated; exact Hi|]. intros i Hi. pose proof (near1 _ (Hx i Hi)). lra. }
    assert (G1 : forall i, (i < H)%nat -> Qabs (g i) <= 1).
    { intros i Hi. unfold g. pose proof (forget_01 H I wf bf x h i) as F. apply Qle_trans with (1 * 1); [|lra]. apply mul_abs; [rewrite Qabs_pos; lra|apply Hh, Hi]. }
    assert (P := dot_rows (H + I) (joined H g' (fun i => q (x i))) (joined H g (fun i => x i)) (fun i => q (wn o i)) (fun i => wn o i) (fxp_gate u N Rf + u + u) u Rn ltac:(lra) U0
      (joined_all (fun v => Qabs v <= 1) g x G1 Hx) (Hn o Ho) A (fun i Hi => Qnear _ (Wn o i Ho Hi))).
    split; [apply (proj1 (unit_abs _)), clamp_unit|].
    set (S := dotq (H + I) (joined H g' (fun i => q (x i))) (fun i => q (wn o i)) + q (bn o)) in *. set (T := dotq (H + I) (joined H g (fun i => x i)) (fun i => wn o i) + bn o) in *.
    assert (D : Qabs (S - T) <= (fxp_gate u N Rf + u + u) * Rn + N * (1 + (fxp_gate u N Rf + u + u)) * u + u).
    { eapply Qle_trans; [|exact (abs2 _ _ _ _ P (Qnear _ (Bn o Ho)))]. apply Qle_lteq. right. apply Qabs_wd. unfold S, T. ring. }
    apply (clamp_near (-1) 1) in D; [|lra]. pose proof (Qclamp S) as C. unfold fxp_new. cbv zeta. eapply Qle_trans; [|exact (abs2 _ _ _ _ D C)]. apply Qle_lteq. right. apply Qabs_wd. ring.
  Qed.
  Theorem quant_next o : (o < H)%nat -> Qabs (mgu_next_fxp q H I wf wn bf bn h x o - Spec.mgu_next H I wf wn bf bn h x o) <= fxp_cell u N Rf Rn.
  Proof.
    intros Ho. destruct (quant_forget o Ho) as [F DF]. destruct (quant_new o Ho) as [NI DN]. pose proof (gate_nonneg ltac:(lia)) as G0.
    pose proof (new_in H I wf wn bf bn x h o) as N1. unfold mgu_next_fxp, Spec.mgu_next. cbv zeta.
    assert (UN : u <= fxp_new u N Rf Rn).
    { unfold fxp_new. cbv zeta. assert (R0 : 0 <= Rn).
      { specialize (Hn o Ho). eapply Qle_trans; [|exact Hn]. clear. generalize (seq 0 (H + I)). induction l as [|a l IH]; cbn [map qsum]; [lra|]. pose proof (Qabs_nonneg (wn o a)). lra. }
      assert (N0 : 0 <= N) by (unfold N; change 0 with (inject_Z 0); rewrite <- Zle_Qle; lia).
      set (e := fxp_gate u N Rf + u + u) in *. assert (0 <= e) by (unfold e; lra). assert (0 <= e * Rn) by (apply Qmult_le_0_compat; assumption).
      assert (0 <= N * (1 + e)) by (apply Qmult_le_0_compat; lra). assert (0 <= N * (1 + e) * u) by (apply Qmult_le_0_compat; assumption). lra. }
    set (f' := mgu_forget q H I wf bf h x o) in *. set (f := mgu_forget (fun v => v) H I wf bf h x o) in *.
    set (n' := Spec.mgu_new q H I wf wn bf bn h x o) in *. set (n := Spec.mgu_new (fun v => v) H I wf wn bf bn h x o) in *.
    set (en := fxp_new u N Rf Rn) in *. unfold fxp_cell. fold en. set (ef := fxp_gate u N Rf) in *. clearbody f f' n n' en ef.
    pose proof (Hh o Ho) as Ho'. pose proof (near1 _ Ho') as P1. pose proof (Qunit _ Ho') as P2.
    pose proof (convex_near f f' n n' (h o) (q (h o)) ef en u F Ho' N1 DF DN P1) as C.
    assert (EM : qmax u en == en) by (unfold qmax; destruct (Qle_bool u en) eqn:E; [reflexivity|apply qle_false in E; lra]). rewrite EM in C.
    assert (A1 : Qabs (f' * n') <= 1 * 1) by (apply mul_abs; [rewrite Qabs_pos; lra|exact NI]). rewrite Qmult_1_l in A1. apply near1 in A1.
    assert (A2 : Qabs (f' * q (h o)) <= 1 * 1) by (apply mul_abs; [rewrite Qabs_pos; lra|exact P2]). rewrite Qmult_1_l in A2. apply near1 in A2.
    rewrite Qabs_Qminus in A1. eapply Qle_trans; [|eapply Qle_trans; [exact (abs3 _ _ _ _ _ _ C A1 A2)|lra]]. apply Qle_lteq. right. apply Qabs_wd. ring.
  Qed.
End Quant.

Section Format.
  Variables (i f : Z).
  Hypothesis Hi : (1 <= i)%Z.
  Hypothesis Hf : (0 <= f)%Z.
  Let M := Qpower 2 i - 1 / Qpower 2 f.
  Lemma format_top : M == inject_Z (2 ^ (i + f) - 1) / qpow2 f.
  Proof.
    unfold M. unfold Z.sub. rewrite inject_Z_plus, <- (qpow2_Z (i + f)) by lia. rewrite qpow2_add. pose proof (qpow2_pos f). fold (qpow2 f) (qpow2 i).
    change (inject_Z (- (1))) with (-1). field. lra.
  Qed.
  Lemma format_one : 1 <= M.
  Proof.
    unfold M. fold (qpow2 f) (qpow2 i). assert (I2 : 2 <= qpow2 i) by (rewrite qpow2_Z by lia; change 2 with (inject_Z 2); rewrite <- Zle_Qle; change 2%Z with (2 ^ 1)%Z at 1; apply Z.pow_le_mono_r; lia).
    assert (F1 : 1 <= qpow2 f) by (rewrite qpow2_Z by lia; change 1 with (inject_Z 1); rewrite <- Zle_Qle; pose proof (Z.pow_pos_nonneg 2 f); lia).
    assert (1 / qpow2 f <= 1) by (apply Qle_shift_div_r; lra). lra.
  Qed.
  Lemma format_near v : Qabs v <= M -> Qabs (round_fxp i f v - v) <= half_step f.
  Proof.
    intros Hv. apply (fxq_error i f ltac:(lia) Hf v (2 ^ (i + f) - 1)).
    - pose proof format_top as T. pose proof format_one. rewrite <- T, (Qabs_pos M) by lra. exact Hv.
    - assert (0 < 2 ^ (i + f))%Z by (apply Z.pow_pos_nonneg; lia). lia.
  Qed.
  Lemma format_clamp v : Qabs (qclamp (-1) 1 (round_fxp i f v) - qclamp (-1) 1 v) <= half_step f.
  Proof.
    assert (U : 0 <= half_step f) by (unfold half_step; pose proof (qpow2_pos f); apply Qle_shift_div_l; [assumption|lra]).
    pose proof format_one as M1. pose proof format_top as T.
    assert (Top : round_fxp i f M == M).
    { assert (P : (0 < 2 ^ (i + f))%Z) by (apply Z.pow_pos_nonneg; lia). pose proof (fxq_fixed i f ltac:(lia) Hf (2 ^ (i + f) - 1) ltac:(lia)) as E.
      eapply Qeq_trans; [apply fxq_comp; [lia|lia|exact T]|]. eapply Qeq_trans; [exact E|]. symmetry. exact T. }
    assert (C1 : forall a, 1 <= a -> qclamp (-1) 1 a == 1).
    { intros a Ha. pose proof (qclamp_range (-1) 1 a ltac:(lra)). pose proof (qclamp_mono (-1) 1 1 a Ha) as X. rewrite (qclamp_id (-1) 1 1) in X by lra. lra. }
    assert (C2 : forall a, a <= -1 -> qclamp (-1) 1 a == -1).
    { intros a Ha. pose proof (qclamp_range (-1) 1 a ltac:(lra)). pose proof (qclamp_mono (-1) 1 a (-1) Ha) as X. rewrite (qclamp_id (-1) 1 (-1)) in X by lra. lra. }
    destruct (Qlt_le_dec M v) as [L|L].
    - pose proof (fxq_mono i f ltac:(lia) Hf M v ltac:(lra)) as R. rewrite Top in R. rewrite !C1 by lra. rewrite Qabs_pos; lra.
    - destruct (Qlt_le_dec v (- M)) as [G|G].
      + pose proof (fxq_mono i f ltac:(lia) Hf v (- M) ltac:(lra)) as R. rewrite (fxq_opp i f ltac:(lia) Hf), Top in R. rewrite !C2 by lra. rewrite Qabs_pos; lra.
      + apply clamp_near; [lra|]. apply format_near. apply Qabs_Qle_condition. lra.
  Qed.
End Format.

(** One call of HardMGUCellFXP. *)
Definition par_format (i f : Z) (H I : nat) (p : mgu_par) : Prop :=
  (forall o k, (o < H)%nat -> (k < H + I)%nat -> in_format i f (qentry (mg_wf p) o k) /\ in_format i f (qentry (mg_wn p) o k)) /\
  (forall o, (o < H)%nat -> in_format i f (bias_entry (mg_bf p) o) /\ in_format i f (bias_entry (mg_bn p) o)).
Definition inputs_unit (B I : nat) (x : list (list Q)) : Prop := qshape B I x /\ forall b k, (b < B)%nat -> (k < I)%nat -> in_unit (qentry x b k).
Theorem fxp_error : forall B H I i f p Rf Rn input hx, (1 <= i)%Z -> (0 <= f)%Z -> mgu_par_ok H I p -> par_format i f H I p ->
  rows_within H (H + I) (qentry (mg_wf p)) Rf -> rows_within H (H + I) (qentry (mg_wn p)) Rn -> inputs_unit B I input -> unit_state B H hx ->
  let y := mv_hy (hardmgufxp_forward i f H p input hx) in
  qshape B H y /\ forall b, (b < B)%nat -> apart H (fxp_cell (half_step f) (inject_Z (Z.of_nat (H + I))) Rf Rn) (qentry y b) (qentry (mv_hy (hardmgu_forward H p input hx)) b).
Proof.
  intros B H I i f p Rf Rn input hx Hi Hf Hp [PF1 PF2] Hrf Hrn [Si Ui] Hu y.
  assert (Sh : match hx with Some h => qshape B H h | None => True end) by (destruct hx; [apply Hu|exact Logic.I]).
  destruct (mgu_values B H I p input hx Hp Si Sh (fun b o => unit_state_entry B H hx b o Hu)) as [_ V]. cbn zeta in V.
  destruct (mgufxp_values B H I i f p input hx ltac:(lia) Hf Hp Si Sh (fun b o => unit_state_entry B H hx b o Hu)) as [Sy W]. cbn zeta in Sy, W. split; [exact Sy|].
  intros b Hb o Ho. destruct (V b o Hb Ho) as (_ & _ & _ & _ & _ & _ & _ & _ & E1 & _). destruct (W b o Hb Ho) as (_ & _ & _ & _ & _ & _ & _ & _ & E2 & _).
  unfold y. rewrite E1, E2.
  assert (U0 : 0 <= half_step f) by (unfold half_step; pose proof (qpow2_pos f); apply Qle_shift_div_l; [assumption|lra]).
  apply (quant_next (round_fxp i f) (half_step f) (Qpower 2 i - 1 / Qpower 2 f)); try assumption.
  - exact (format_one i f Hi Hf).
  - exact (format_near i f Hi Hf).
  - intros v Hv. apply (fxq_01 i f ltac:(lia) Hf). exact Hv.
  - intros v Hv. apply (proj1 (unit_abs _)). apply (fxq_unit i f ltac:(lia) Hf). apply (proj2 (unit_abs _)). exact Hv.
  - exact (format_clamp i f Hi Hf).
  - intros o' k Ho' Hk. apply (PF1 o' k Ho' Hk).
  - intros o' k Ho' Hk. apply (PF1 o' k Ho' Hk).
  - intros o' Ho'. apply (PF2 o' Ho').
  - intros o' Ho'. apply (PF2 o' Ho').
  - intros k Hk. apply (proj1 (unit_abs _)). exact (unit_state_entry B H hx b k Hu Hb Hk).
  - intros k Hk. apply (proj1 (unit_abs _)). exact (Ui b k Hb Hk).
Qed.

Theorem fxp_sequence : forall B H I i f p Rf Rn af an hx inputs, (1 <= i)%Z -> (0 <= f)%Z -> mgu_par_ok H I p -> par_format i f H I p ->
  rows_within H (H + I) (qentry (mg_wf p)) Rf -> rows_within H (H + I) (qentry (mg_wn p)) Rn ->
  0 <= af -> rows_within H H (qentry (mg_wf p)) af -> rows_within H H (qentry (mg_wn p)) an ->
  Forall (inputs_unit B I) inputs -> unit_state B H hx ->
  forall t, (t < List.length inputs)%nat -> exists v v', nth_error (outs (cell_step (hardmgufxp_forward i f H p)) hx inputs) t = Some v /\
    nth_error (outs (cell_step (hardmgu_forward H p)) hx inputs) t = Some v' /\
    forall b, (b < B)%nat -> apart H (fxp_cell (half_step f) (inject_Z (Z.of_nat (H + I))) Rf Rn * growth (cell_gain af an) (S t)) (qentry (mv_hy v) b) (qentry (mv_hy v') b).
Proof.
  intros B H I i f p Rf Rn af an hx inputs Hi Hf Hp PF Hrf Hrn F0 Raf Ran Hin Hu t Ht.
  set (e := fxp_cell (half_step f) (inject_Z (Z.of_nat (H + I))) Rf Rn).
  assert (S2 : Forall (qshape B I) inputs) by (eapply Forall_impl; [|exact Hin]; intros x [X _]; exact X).
  destruct (mgufxp_sequence B H I i f p hx inputs ltac:(lia) Hf Hp Hu S2 t Ht) as (v & N & _).
  destruct (mgu_sequence B H I p hx inputs Hp Hu S2 t Ht) as (v' & N' & _).
  exists v, v'. split; [exact N|]. split; [exact N'|].
  destruct H as [|H0]; [intros b Hb o Ho; lia|]. destruct B as [|B0]; [intros b Hb; lia|]. set (H := S H0) in *. set (B := S B0) in *.
  assert (Fo : follows B H I p e hx inputs (map mv_hy (outs (cell_step (hardmgufxp_forward i f H p)) hx inputs))).
  { clear N N' v v' Ht t S2. revert hx Hu. induction Hin as [|x inputs Hx Hin IH]; intros hx Hu; [exact Logic.I|].
    destruct (fxp_error B H I i f p Rf Rn x hx Hi Hf Hp PF Hrf Hrn Hx Hu) as [Sy Ey].
    assert (Sh : match hx with Some h => qshape B H h | None => True end) by (destruct hx; [apply Hu|exact Logic.I]).
    destruct (mgu_values B H I p x hx Hp (proj1 Hx) Sh (fun b o => unit_state_entry B H hx b o Hu)) as [_ V]. cbn zeta in V.
    destruct (mgufxp_values B H I i f p x hx ltac:(lia) Hf Hp (proj1 Hx) Sh (fun b o => unit_state_entry B H hx b o Hu)) as [_ W]. cbn zeta in W.
    rewrite outs_cons. set (v := hardmgufxp_forward i f H p x hx) in *.
    assert (Ef : fst (cell_step (hardmgufxp_forward i f H p) hx x) = Some (mv_hy v)) by reflexivity.
    assert (Es : snd (cell_step (hardmgufxp_forward i f H p) hx x) = v) by reflexivity. rewrite Ef, Es. cbn [map follows].
    assert (Uv : unit_state B H (Some (mv_hy v))) by (split; [exact Sy|]; intros b o Hb Ho; apply (W b o Hb Ho)).
    split; [|apply IH; exact Uv]. split; [exact Uv|]. intros b Hb o Ho. specialize (Ey b Hb o Ho). fold e in Ey.
    destruct (V b o Hb Ho) as (_ & _ & _ & _ & _ & _ & _ & _ & Ev & _). rewrite Ev in Ey. exact Ey. }
  assert (E0 : 0 <= e).
  { destruct inputs as [|x inputs]; [cbn in Ht; lia|]. destruct (fxp_error B H I i f p Rf Rn x hx Hi Hf Hp PF Hrf Hrn (Forall_inv Hin) Hu) as [_ Ey].
    eapply Qle_trans; [apply Qabs_nonneg|exact (Ey 0%nat ltac:(unfold B; lia) 0%nat ltac:(unfold H; lia))]. }
  destruct (drift B H I p e af an Hp E0 F0 Raf Ran inputs (map mv_hy (outs (cell_step (hardmgufxp_forward i f H p)) hx inputs)) hx hx 0 ltac:(lra) S2 Hu Hu) as [_ R]; [|exact Fo|].
  { intros b Hb o Ho. setoid_replace (state_entry hx b o - state_entry hx b o) with 0 by ring. rewrite Qabs_pos; lra. }
  destruct (R t Ht) as (w & Nw & _ & W). rewrite N' in Nw. injection Nw as <-. intros b Hb o Ho. specialize (W b o Hb Ho).
  rewrite (nth_error_nth _ _ [] (map_nth_error mv_hy _ _ N)) in W. lra.
Qed.
