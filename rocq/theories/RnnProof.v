(** Proofs about RnnModel: the hard minimal gated units. *)
Require Import Verif.BaseLemmas Verif.AddModel Verif.UtilsModel Verif.HubModel Verif.RnnModel Verif.LinearProof Verif.UtilsProof Verif.AddProof Verif.HubProof.
Open Scope Z_scope.

(** ** Entries of batches *)
Lemma qentry_bmap f B n a b i : qshape B n a -> (b < B)%nat -> (i < n)%nat -> qentry (bmap f a) b i = f (qentry a b i).
Proof.
  intros S Hb Hi. unfold qentry, bmap. pose proof (qshape_row B n a b S Hb) as R. destruct S as [S1 S2].
  rewrite (map_nth_lt (map f) a b [] []) by lia. rewrite (map_nth_lt f _ i 0%Q 0%Q) by lia. reflexivity.
Qed.
Lemma bmap_shape f B n a : qshape B n a -> qshape B n (bmap f a).
Proof. intros [S1 S2]. unfold bmap. split; [rewrite map_length; exact S1|]. rewrite Forall_map. eapply Forall_impl; [|exact S2]. intros x Hx. rewrite map_length. exact Hx. Qed.

Lemma qentry_bmap2 f B n a c b i : qshape B n a -> qshape B n c -> (b < B)%nat -> (i < n)%nat ->
  qentry (bmap2 f a c) b i = f (qentry a b i) (qentry c b i).
Proof.
  intros S T Hb Hi. unfold qentry, bmap2. pose proof (qshape_row B n a b S Hb) as R. pose proof (qshape_row B n c b T Hb) as R'. destruct S as [S1 S2], T as [T1 T2].
  rewrite (map2_nth_lt (map2 f) a c b [] [] []) by lia. rewrite (map2_nth_lt f _ _ i 0%Q 0%Q 0%Q) by lia. reflexivity.
Qed.
Lemma map2_forall {A B C} (f : A -> B -> C) (P : C -> Prop) (Q1 : A -> Prop) (Q2 : B -> Prop) : (forall x y, Q1 x -> Q2 y -> P (f x y)) ->
  forall l1 l2, Forall Q1 l1 -> Forall Q2 l2 -> Forall P (map2 f l1 l2).
Proof.
  intros H. induction l1 as [|x l1 IH]; intros [|y l2] F1 F2; try apply Forall_nil.
  cbn [map2]. apply Forall_cons; [apply H; [exact (Forall_inv F1)|exact (Forall_inv F2)]|].
  apply IH; [exact (Forall_inv_tail F1)|exact (Forall_inv_tail F2)].
Qed.
Lemma bmap2_shape f B n a c : qshape B n a -> qshape B n c -> qshape B n (bmap2 f a c).
Proof.
  intros [S1 S2] [T1 T2]. unfold bmap2. split; [rewrite map2_length; lia|].
  eapply map2_forall; [|exact S2|exact T2]. intros x y Hx Hy. cbn beta in *. rewrite map2_length; lia.
Qed.

Lemma qentry_cat B n m a c b i : qshape B n a -> qshape B m c -> (b < B)%nat -> (i < n + m)%nat ->
  qentry (cat1 a c) b i = joined n (qentry a b) (qentry c b) i.
Proof.
  intros S T Hb Hi. unfold qentry, cat1, joined. pose proof (qshape_row B n a b S Hb) as R. pose proof (qshape_row B m c b T Hb) as R'. destruct S as [S1 S2], T as [T1 T2].
  rewrite (map2_nth_lt _ a c b [] [] []) by lia. destruct (Nat.ltb_spec i n).
  - rewrite app_nth1 by lia. reflexivity.
  - rewrite app_nth2 by lia. rewrite R. reflexivity.
Qed.
Lemma cat_shape B n m a c : qshape B n a -> qshape B m c -> qshape B (n + m) (cat1 a c).
Proof.
  intros [S1 S2] [T1 T2]. unfold cat1. split; [rewrite map2_length; lia|].
  eapply map2_forall; [|exact S2|exact T2]. intros x y Hx Hy. cbn beta in *. rewrite app_length. lia.
Qed.

Lemma linear_shape B n no x w b : qshape B n x -> qshape no n w -> bias_ok no b -> qshape B no (f_linear x w b).
Proof. intros. unfold f_linear, qmatmul_t. eapply layer_shape; eassumption. Qed.
Lemma qentry_linear B n no x w bias b o : qshape B n x -> qshape no n w -> bias_ok no bias -> (b < B)%nat -> (o < no)%nat ->
  (qentry (f_linear x w bias) b o == dotq n (qentry x b) (qentry w o) + bias_entry bias o)%Q.
Proof.
  intros Sx Sw Hb Lb Lo. unfold f_linear, qmatmul_t. rewrite (layer_entry qdot B n no) by eassumption.
  unfold qdot. rewrite (map2_seq Qmult n _ _ 0%Q 0%Q) by (eapply qshape_row; eassumption). reflexivity.
Qed.

Lemma hx_shape B H I input hx : qshape B I input -> (match hx with Some h => qshape B H h | None => True end) -> qshape B H (mgu_hx H input hx).
Proof.
  intros [S1 S2] Hx. destruct hx as [h|]; [exact Hx|]. cbn. split; [rewrite repeat_length; exact S1|].
  apply Forall_forall. intros r Hr. apply repeat_spec in Hr. subst r. apply repeat_length.
Qed.

Lemma qentry_hx B H I input hx b o : qshape B I input -> (b < B)%nat -> (o < H)%nat -> qentry (mgu_hx H input hx) b o = state_entry hx b o.
Proof.
  intros [S1 S2] Hb Ho. destruct hx as [h|]; [reflexivity|]. cbn. unfold qentry.
  rewrite (nth_indep _ [] (repeat 0%Q H)) by (rewrite repeat_length; lia). rewrite nth_repeat, nth_repeat. reflexivity.
Qed.

(** ** Compatibility of the specification with equality of rationals *)
Lemma joined_ext H n h h' x x' i : (i < H + n)%nat -> (forall j, (j < H)%nat -> (h j == h' j)%Q) -> (forall j, (j < n)%nat -> (x j == x' j)%Q) ->
  (joined H h x i == joined H h' x' i)%Q.
Proof. intros Hi E1 E2. unfold joined. destruct (Nat.ltb_spec i H); [apply E1; assumption|apply E2; lia]. Qed.

Section Gate.
  Variables (q : Q -> Q) (Hq : forall a b, (a == b)%Q -> (q a == q b)%Q) (H I : nat).
  Variables (wf wn : nat -> nat -> Q) (bf bn : nat -> Q).
  Lemma forget_ext h h' x x' o : (forall j, (j < H)%nat -> (h j == h' j)%Q) -> (forall j, (j < I)%nat -> (x j == x' j)%Q) ->
    (mgu_forget q H I wf bf h x o == mgu_forget q H I wf bf h' x' o)%Q.
  Proof.
    intros E1 E2. unfold mgu_forget. apply Hq, qclamp_compx.
    apply Qmult_comp; [|reflexivity]. apply Qplus_comp; [|reflexivity]. apply Hq, qclamp_compx. apply Qplus_comp; [|reflexivity].
    apply dotq_ext. intros i Hi. split; [apply Hq, (joined_ext H I); assumption|reflexivity].
  Qed.
  Lemma new_ext h h' x x' o : (forall j, (j < H)%nat -> (h j == h' j)%Q) -> (forall j, (j < I)%nat -> (x j == x' j)%Q) ->
    (mgu_new q H I wf wn bf bn h x o == mgu_new q H I wf wn bf bn h' x' o)%Q.
  Proof.
    intros E1 E2. unfold mgu_new. apply qclamp_compx, Hq. apply Qplus_comp; [|reflexivity].
    apply dotq_ext. intros i Hi. split; [|reflexivity]. apply (joined_ext H I); [exact Hi| |intros j Hj; apply Hq, E2, Hj].
    intros j Hj. apply Hq, Qmult_comp; [apply forget_ext; assumption|apply Hq, E1, Hj].
  Qed.
End Gate.

(** ** The unquantised cell *)
Lemma clamp_unit x : (-1 <= qclamp (-1) 1 x /\ qclamp (-1) 1 x <= 1)%Q. Proof. apply qclamp_range. lra. Qed.
Lemma clamp_01 x : (0 <= qclamp 0 1 x /\ qclamp 0 1 x <= 1)%Q. Proof. apply qclamp_range. lra. Qed.

Definition mgu_par_ok (H I : nat) (p : mgu_par) : Prop :=
  qshape H (H + I) (mg_wf p) /\ bias_ok H (mg_bf p) /\ qshape H (H + I) (mg_wn p) /\ bias_ok H (mg_bn p).

Lemma convex_unit f n h : (0 <= f <= 1 -> in_unit n -> in_unit h -> in_unit ((1 - f) * n + f * h))%Q.
Proof. unfold in_unit. intros. nra. Qed.

Theorem mgu_values : forall B H I p input hx, mgu_par_ok H I p -> qshape B I input ->
  (match hx with Some h => qshape B H h | None => True end) ->
  (forall b o, (b < B)%nat -> (o < H)%nat -> in_unit (state_entry hx b o)) ->
  let v := hardmgu_forward H p input hx in
  qshape B H (mv_hy v) /\ forall b o, (b < B)%nat -> (o < H)%nat ->
  let wf := qentry (mg_wf p) in let wn := qentry (mg_wn p) in let bf := bias_entry (mg_bf p) in let bn := bias_entry (mg_bn p) in
  let h := state_entry hx b in let x := qentry input b in
  (qentry (mv_fg v) b o == mgu_forget (fun q => q) H I wf bf h x o /\ 0 <= qentry (mv_fg v) b o <= 1 /\
   qentry (mv_ng v) b o == mgu_new (fun q => q) H I wf wn bf bn h x o /\ in_unit (qentry (mv_ng v) b o) /\
   in_unit (qentry (mv_fg_in v) b o) /\ in_unit (qentry (mv_fg_hx v) b o) /\ in_unit (qentry (mv_fg_ng v) b o) /\ in_unit (qentry (mv_fg_ng_inv v) b o) /\
   qentry (mv_hy v) b o == mgu_next H I wf wn bf bn h x o /\ in_unit (qentry (mv_hy v) b o))%Q.
Proof.
  intros B H I p input hx (Wf & Bf & Wn & Bn) Si Sh Hu v. pose proof (hx_shape B H I input hx Si Sh) as Sx.
  pose proof (fun b o Hb Ho => qentry_hx B H I input hx b o Si Hb Ho) as Ex. unfold hardmgu_forward, mgu_forward in v.
  set (hx1 := mgu_hx H input hx) in *. clearbody hx1.
  pose proof (cat_shape B H I hx1 input Sx Si) as Sc.
  pose proof (linear_shape B (H + I) H _ (mg_wf p) (mg_bf p) Sc Wf Bf) as Sl.
  set (lf := f_linear (cat1 hx1 input) (mg_wf p) (mg_bf p)) in *.
  pose proof (bmap_shape hubhardtanh B H _ Sl) as Sfi. set (fg_in := bmap hubhardtanh lf) in *.
  pose proof (bmap_shape (hubhardsigmoid 3) B H _ Sfi) as Sfg. set (fg := bmap (hubhardsigmoid 3) fg_in) in *.
  pose proof (bmap2_shape Qmult B H _ _ Sfg Sx) as Sfh. set (fg_hx := bmap2 Qmult fg hx1) in *.
  pose proof (cat_shape B H I fg_hx input Sfh Si) as Sc2.
  pose proof (linear_shape B (H + I) H _ (mg_wn p) (mg_bn p) Sc2 Wn Bn) as Sl2.
  set (ln := f_linear (cat1 fg_hx input) (mg_wn p) (mg_bn p)) in *.
  pose proof (bmap_shape hubhardtanh B H _ Sl2) as Sng. set (ng := bmap hubhardtanh ln) in *.
  pose proof (bmap2_shape Qmult B H _ _ Sfg Sng) as Sfn. set (fg_ng := bmap2 Qmult fg ng) in *.
  pose proof (bmap_shape (fun v => 0 - v)%Q B H _ Sfn) as Sfi2. set (fg_ng_inv := bmap (fun v => 0 - v)%Q fg_ng) in *.
  pose proof (bmap2_shape Qplus B H _ _ Sng Sfi2) as Sp1. pose proof (bmap2_shape Qplus B H _ _ Sp1 Sfh) as Sp2.
  pose proof (bmap_shape hubhardtanh B H _ Sp2) as Sy.
  assert (Ef : forall b o, (b < B)%nat -> (o < H)%nat ->
    (qentry fg b o == mgu_forget (fun q => q) H I (qentry (mg_wf p)) (bias_entry (mg_bf p)) (state_entry hx b) (qentry input b) o)%Q).
  { intros b o Hb Ho. unfold fg. rewrite (qentry_bmap _ B H) by assumption. rewrite hubhardsigmoid_value. unfold mgu_forget.
    apply qclamp_compx, Qmult_comp; [|reflexivity]. apply Qplus_comp; [|reflexivity].
    unfold fg_in. rewrite (qentry_bmap _ B H) by assumption. apply qclamp_compx. unfold lf. rewrite (qentry_linear B (H + I) H) by assumption.
    apply Qplus_comp; [|reflexivity]. apply dotq_ext. intros i Hi. split; [|reflexivity].
    rewrite (qentry_cat B H I) by assumption. apply (joined_ext H I); [exact Hi| |intros; reflexivity].
    intros j Hj. rewrite Ex by assumption. reflexivity. }
  assert (En : forall b o, (b < B)%nat -> (o < H)%nat ->
    (qentry ng b o == mgu_new (fun q => q) H I (qentry (mg_wf p)) (qentry (mg_wn p)) (bias_entry (mg_bf p)) (bias_entry (mg_bn p)) (state_entry hx b) (qentry input b) o)%Q).
  { intros b o Hb Ho. unfold ng. rewrite (qentry_bmap _ B H) by assumption. unfold mgu_new. apply qclamp_compx.
    unfold ln. rewrite (qentry_linear B (H + I) H) by assumption.
    apply Qplus_comp; [|reflexivity]. apply dotq_ext. intros i Hi. split; [|reflexivity].
    rewrite (qentry_cat B H I) by assumption. apply (joined_ext H I); [exact Hi| |intros; reflexivity].
    intros j Hj. unfold fg_hx. rewrite (qentry_bmap2 _ B H) by assumption. rewrite Ef, Ex by assumption. reflexivity. }
  split; [exact Sy|]. intros b o Hb Ho. cbn zeta. subst v. cbn [mv_fg mv_ng mv_fg_in mv_fg_hx mv_fg_ng mv_fg_ng_inv mv_hy].
  assert (F01 : (0 <= qentry fg b o <= 1)%Q) by (rewrite Ef by assumption; apply clamp_01).
  assert (N1 : in_unit (qentry ng b o)) by (unfold ng; rewrite (qentry_bmap _ B H) by assumption; apply clamp_unit).
  specialize (Hu b o Hb Ho).
  assert (Eh : qentry fg_hx b o = (qentry fg b o * state_entry hx b o)%Q)
    by (unfold fg_hx; rewrite (qentry_bmap2 _ B H) by assumption; rewrite Ex by assumption; reflexivity).
  assert (Efn : qentry fg_ng b o = (qentry fg b o * qentry ng b o)%Q)
    by (unfold fg_ng; rewrite (qentry_bmap2 _ B H) by assumption; reflexivity).
  assert (Ei : qentry fg_ng_inv b o = (0 - qentry fg b o * qentry ng b o)%Q)
    by (unfold fg_ng_inv; rewrite (qentry_bmap _ B H) by assumption; rewrite Efn; reflexivity).
  split; [apply Ef; assumption|]. split; [exact F01|]. split; [apply En; assumption|]. split; [exact N1|].
  split; [unfold fg_in; rewrite (qentry_bmap _ B H) by assumption; apply clamp_unit|].
  split; [rewrite Eh; unfold in_unit in *; nra|]. split; [rewrite Efn; unfold in_unit in *; nra|]. split; [rewrite Ei; unfold in_unit in *; nra|].
  assert (Ey : (qentry (bmap hubhardtanh (bmap2 Qplus (bmap2 Qplus ng fg_ng_inv) fg_hx)) b o ==
    (1 - qentry fg b o) * qentry ng b o + qentry fg b o * state_entry hx b o)%Q).
  { rewrite (qentry_bmap _ B H), !(qentry_bmap2 _ B H) by assumption. rewrite Ei, Eh. unfold hubhardtanh.
    pose proof (convex_unit _ _ _ F01 N1 Hu) as [C1 C2]. rewrite qclamp_id; [ring| |]; lra. }
  split; [rewrite Ey; unfold mgu_next; cbn zeta; rewrite <- Ef, <- En by assumption; reflexivity|].
  pose proof (convex_unit _ _ _ F01 N1 Hu) as [C1 C2]. unfold in_unit. lra.
Qed.

(** The hidden state is bounded for any gates: the last hardtanh alone suffices. *)
Theorem mgu_bounded_any : forall sg th B H I p input hx, mgu_par_ok H I p -> qshape B I input ->
  (match hx with Some h => qshape B H h | None => True end) ->
  forall b o, (b < B)%nat -> (o < H)%nat -> in_unit (qentry (mv_hy (mgu_forward sg th H p input hx)) b o).
Proof.
  intros sg th B H I p input hx (Wf & Bf & Wn & Bn) Si Sh b o Hb Ho. pose proof (hx_shape B H I input hx Si Sh) as Sx.
  unfold mgu_forward. cbn zeta. cbn [mv_hy].
  pose proof (bmap_shape sg B H _ (bmap_shape hubhardtanh B H _ (linear_shape B (H + I) H _ _ _ (cat_shape B H I _ _ Sx Si) Wf Bf))) as Sfg.
  set (fg := bmap sg _) in *. pose proof (bmap2_shape Qmult B H _ _ Sfg Sx) as Sfh. set (fg_hx := bmap2 Qmult fg _) in *.
  pose proof (bmap_shape th B H _ (linear_shape B (H + I) H _ _ _ (cat_shape B H I _ _ Sfh Si) Wn Bn)) as Sng. set (ng := bmap th _) in *.
  pose proof (bmap_shape (fun v => 0 - v)%Q B H _ (bmap2_shape Qmult B H _ _ Sfg Sng)) as Sn.
  rewrite (qentry_bmap _ B H); [apply clamp_unit| |assumption|assumption].
  apply bmap2_shape; [apply bmap2_shape; assumption|assumption].
Qed.

(** ** Sequences *)
Definition unit_state (B H : nat) (hx : option (list (list Q))) : Prop :=
  match hx with Some h => qshape B H h /\ forall b o, (b < B)%nat -> (o < H)%nat -> in_unit (qentry h b o) | None => True end.

Lemma unit_state_entry B H hx b o : unit_state B H hx -> (b < B)%nat -> (o < H)%nat -> in_unit (state_entry hx b o).
Proof. destruct hx as [h|]; [intros [_ U]; apply U|]. intros _ _ _. unfold in_unit, state_entry. lra. Qed.


Lemma next_ext H I wf wn bf bn h h' x o : (o < H)%nat -> (forall j, (j < H)%nat -> (h j == h' j)%Q) ->
  (mgu_next H I wf wn bf bn h x o == mgu_next H I wf wn bf bn h' x o)%Q.
Proof.
  intros Ho E. unfold mgu_next. cbn zeta.
  pose proof (forget_ext (fun q => q) (fun a b e => e) H I wf bf h h' x x o E ltac:(intros; reflexivity)) as E1.
  pose proof (new_ext (fun q => q) (fun a b e => e) H I wf wn bf bn h h' x x o E ltac:(intros; reflexivity)) as E2.
  rewrite E1, E2, (E o Ho). reflexivity.
Qed.

Theorem mgu_sequence : forall B H I p hx inputs, mgu_par_ok H I p -> unit_state B H hx -> Forall (qshape B I) inputs ->
  let vs := outs (cell_step (hardmgu_forward H p)) hx inputs in
  forall t, (t < length inputs)%nat -> exists v, nth_error vs t = Some v /\ qshape B H (mv_hy v) /\
    forall b o, (b < B)%nat -> (o < H)%nat ->
    in_unit (qentry (mv_hy v) b o) /\
    (qentry (mv_hy v) b o ==
     mgu_after (mgu_next H I (qentry (mg_wf p)) (qentry (mg_wn p)) (bias_entry (mg_bf p)) (bias_entry (mg_bn p)))
       (state_entry hx b) (map (fun x => qentry x b) (firstn (S t) inputs)) o)%Q.
Proof.
  intros B H I p hx inputs Hp Hu Hi vs. subst vs. revert hx Hu Hi.
  assert (Ext : forall b xs h h', (forall j, (j < H)%nat -> (h j == h' j)%Q) -> forall o, (o < H)%nat ->
     (mgu_after (mgu_next H I (qentry (mg_wf p)) (qentry (mg_wn p)) (bias_entry (mg_bf p)) (bias_entry (mg_bn p))) h (map (fun x => qentry x b) xs) o ==
      mgu_after (mgu_next H I (qentry (mg_wf p)) (qentry (mg_wn p)) (bias_entry (mg_bf p)) (bias_entry (mg_bn p))) h' (map (fun x => qentry x b) xs) o)%Q).
  { intros b. induction xs as [|x xs IH]; intros h h' E o Ho; [apply E, Ho|]. cbn [map]. unfold mgu_after. cbn [fold_left].
    apply IH; [|exact Ho]. intros j Hj. apply next_ext; assumption. }
  induction inputs as [|x inputs IH]; intros hx Hu Hi t Ht; [cbn in Ht; lia|].
  pose proof (Forall_inv Hi) as Sx. apply Forall_inv_tail in Hi.
  assert (Sh : match hx with Some h => qshape B H h | None => True end) by (destruct hx; [apply Hu|exact Logic.I]).
  destruct (mgu_values B H I p x hx Hp Sx Sh (fun b o => unit_state_entry B H hx b o Hu)) as [Sy V]. cbn zeta in Sy, V.
  rewrite outs_cons. set (v := hardmgu_forward H p x hx) in *.
  assert (Ef : fst (cell_step (hardmgu_forward H p) hx x) = Some (mv_hy v)) by reflexivity.
  assert (Es : snd (cell_step (hardmgu_forward H p) hx x) = v) by reflexivity. rewrite Ef, Es. destruct t as [|t].
  - exists v. split; [reflexivity|]. split; [exact Sy|]. intros b o Hb Ho. destruct (V b o Hb Ho) as (_ & _ & _ & _ & _ & _ & _ & _ & E & U).
    split; [exact U|]. exact E.
  - cbn [length] in Ht. destruct (IH (Some (mv_hy v))) with (t := t) as (v' & N & S' & V'); [|exact Hi|lia|].
    { split; [exact Sy|]. intros b o Hb Ho. apply (V b o Hb Ho). }
    exists v'. split; [exact N|]. split; [exact S'|]. intros b o Hb Ho. destruct (V' b o Hb Ho) as [U' E'].
    split; [exact U'|]. rewrite E'. replace (map (fun x0 => qentry x0 b) (firstn (S (S t)) (x :: inputs)))
      with (qentry x b :: map (fun x0 => qentry x0 b) (firstn (S t) inputs)) by reflexivity.
    unfold mgu_after at 2. cbn [fold_left]. apply Ext; [|exact Ho]. intros j Hj. cbn [state_entry]. apply (V b j Hb Hj).
Qed.

(** ** The quantised cell *)
Section Fxp.
  Variables (i f : Z) (Hi : 0 <= i) (Hf : 0 <= f).
  Let q := round_fxp i f.
  Let Hif : 0 <= i + f. Proof. lia. Qed.

  Lemma fxq_comp a b : (a == b)%Q -> (q a == q b)%Q.
  Proof.
    intros E. unfold q. rewrite !(round_fxp_eq i f _ Hif). assert (E' : (a * qpow2 f == b * qpow2 f)%Q) by (rewrite E; reflexivity).
    rewrite (qround_comp _ _ E'). reflexivity.
  Qed.
  Lemma fxq_grid x : exists k, (q x == inject_Z k / qpow2 f)%Q /\ Z.abs k <= 2 ^ (i + f) - 1.
  Proof.
    destruct (round_spec i f x Hif) as (k & E & Hk & _). exists k. split; [exact E|lia].
  Qed.
  Lemma fxq_fixed k : Z.abs k <= 2 ^ (i + f) - 1 -> (q (inject_Z k / qpow2 f) == inject_Z k / qpow2 f)%Q.
  Proof.
    intros Hk. unfold q. rewrite (round_fxp_eq i f _ Hif). pose proof (qpow2_pos f) as P.
    assert (E : (inject_Z k / qpow2 f * qpow2 f == inject_Z k)%Q) by (field; lra).
    rewrite (qround_comp _ _ E), qround_Z. replace (zclamp _ _ k) with k by (unfold zclamp; lia). reflexivity.
  Qed.
  Lemma fxq_idem x : (q (q x) == q x)%Q. Proof. exact (proj1 (round_laws i f Hif) x). Qed.
  Lemma fxq_mono x y : (x <= y)%Q -> (q x <= q y)%Q. Proof. exact (proj1 (proj2 (round_laws i f Hif)) x y). Qed.
  Lemma fxq_opp x : (q (- x) == - q x)%Q. Proof. exact (proj2 (proj2 (round_laws i f Hif)) x). Qed.
  Lemma fxq_0 : (q 0 == 0)%Q.
  Proof.
    pose proof (fxq_fixed 0) as E. assert (E0 : (inject_Z 0 / qpow2 f == 0)%Q) by (pose proof (qpow2_pos f); field; lra).
    rewrite (fxq_comp _ _ E0) in E. rewrite E; [exact E0|]. pose proof (Z.pow_pos_nonneg 2 (i + f)). lia.
  Qed.
  (** Values of magnitude at most 1 stay there. *)
  Lemma fxq_unit x : in_unit x -> in_unit (q x).
  Proof.
    intros [A B]. pose proof (qpow2_pos f) as P. assert (E1 : (qpow2 f == inject_Z (2 ^ f))%Q) by (apply qpow2_Z; lia).
    assert (U : forall y, (y <= 1)%Q -> (q y <= 1)%Q).
    { intros y Hy. unfold q. rewrite (round_fxp_eq i f _ Hif). apply Qle_shift_div_r; [exact P|]. rewrite Qmult_1_l. apply Qle_trans with (inject_Z (2 ^ f)); [|lra]. apply inject_Z_le_iff.
      assert (qround (y * qpow2 f) <= 2 ^ f) by (rewrite <- (qround_Z (2 ^ f)); apply qround_mono; apply Qle_trans with (qpow2 f); [nra|apply Qle_lteq; right; exact E1]).
      pose proof (Z.pow_pos_nonneg 2 f ltac:(lia) Hf). unfold zclamp. lia. }
    split; [|apply U, B]. pose proof (U (- x)%Q ltac:(lra)) as L. rewrite fxq_opp in L. lra.
  Qed.
  Lemma fxq_01 x : (0 <= x <= 1 -> 0 <= q x <= 1)%Q.
  Proof.
    intros [A B]. split; [rewrite <- fxq_0 at 1; apply fxq_mono, A|]. apply (fxq_unit x). split; lra.
  Qed.
  (** Within the range of the format the error is half a step. *)
  Lemma fxq_error x k : (Qabs x <= Qabs (inject_Z k / qpow2 f))%Q -> Z.abs k <= 2 ^ (i + f) - 1 -> (Qabs (q x - x) <= (1 # 2) / qpow2 f)%Q.
  Proof.
    intros Hx Hk. pose proof (qpow2_pos f) as P. unfold q. rewrite (round_fxp_eq i f _ Hif). set (M := 2 ^ (i + f) - 1) in *.
    assert (Ek : (Qabs (inject_Z k / qpow2 f) == inject_Z (Z.abs k) / qpow2 f)%Q).
    { unfold Qdiv. rewrite Qabs_Qmult. rewrite (Qabs_pos (/ qpow2 f)) by (apply Qlt_le_weak, Qinv_lt_0_compat, P).
      apply Qmult_comp; [|reflexivity]. reflexivity. }
    rewrite Ek in Hx. clear Ek.
    assert (Hx2 : (Qabs (x * qpow2 f) <= inject_Z M)%Q).
    { rewrite Qabs_Qmult, (Qabs_pos (qpow2 f)) by lra. apply Qle_trans with (inject_Z (Z.abs k)); [|apply inject_Z_le_iff; exact Hk].
      apply (Qmult_le_compat_r _ _ (qpow2 f)) in Hx; [|lra]. assert (E : (inject_Z (Z.abs k) / qpow2 f * qpow2 f == inject_Z (Z.abs k))%Q) by (field; lra).
      rewrite E in Hx. exact Hx. }
    apply Qabs_Qle_condition in Hx2. destruct Hx2 as [Xa Xb]. rewrite <- inject_Z_opp in Xa.
    pose proof (qround_between _ _ _ Xa Xb) as R. replace (zclamp (- M) M (qround (x * qpow2 f))) with (qround (x * qpow2 f)) by (unfold zclamp; lia).
    pose proof (qround_abs (x * qpow2 f)) as A. set (r := qround (x * qpow2 f)) in *. clearbody r.
    assert (E : (inject_Z r / qpow2 f - x == - ((x * qpow2 f - inject_Z r) / qpow2 f))%Q) by (field; lra).
    rewrite E, Qabs_opp. unfold Qdiv. rewrite Qabs_Qmult, (Qabs_pos (/ qpow2 f)) by (apply Qlt_le_weak, Qinv_lt_0_compat, P).
    apply Qmult_le_compat_r; [exact A|]. apply Qlt_le_weak, Qinv_lt_0_compat, P.
  Qed.

  (** The quantised convex combination needs no clipping. *)
  Lemma fxq_convex g n h : (0 <= g <= 1)%Q -> in_unit n -> in_unit h -> (q g == g)%Q -> (q n == n)%Q -> (q h == h)%Q ->
    in_unit (n - q (g * n) + q (g * h)).
  Proof.
    assert (U : forall g n h, (0 <= g <= 1)%Q -> in_unit n -> in_unit h -> (q g == g)%Q -> (q n == n)%Q -> (q h == h)%Q ->
      (n - q (g * n) + q (g * h) <= 1)%Q).
    { clear g n h. intros g n h Hg [Hn1 Hn2] [Hh1 Hh2] Fg Fn Fh. pose proof (qpow2_pos f) as P.
      assert (E1 : (qpow2 f == inject_Z (2 ^ f))%Q) by (apply qpow2_Z; lia).
      destruct (fxq_grid g) as (kg & Eg & Bg). rewrite Fg in Eg. destruct (fxq_grid n) as (kn & En & Bn). rewrite Fn in En.
      assert (Lg : (q (g * h) <= g)%Q) by (rewrite <- Fg at 2; apply fxq_mono; nra).
      (* the integer kg - 2^f + kn is below g n in steps *)
      set (z := kg - 2 ^ f + kn).
      assert (Gz : (0 <= g * qpow2 f)%Q) by nra.
      assert (Ig : (g * qpow2 f == inject_Z kg)%Q) by (rewrite Eg; field; lra).
      assert (In' : (n * qpow2 f == inject_Z kn)%Q) by (rewrite En; field; lra).
      assert (Kg : 0 <= kg <= 2 ^ f).
      { split; apply inject_Z_le_iff; rewrite <- Ig, <- ?E1; change (inject_Z 0) with 0%Q; nra. }
      assert (Kn : - 2 ^ f <= kn <= 2 ^ f).
      { split; apply inject_Z_le_iff; rewrite <- In', ?inject_Z_opp, <- E1; nra. }
      destruct (Z_lt_le_dec z (- (2 ^ (i + f) - 1))) as [Lz|Gz'].
      - (* only when the format ends below 1 and n = -1 *)
        assert (2 ^ f <= 2 ^ (i + f)) by (apply Z.pow_le_mono_r; lia).
        pose proof (fxq_unit (g * n)%Q) as X. unfold in_unit in X.
        assert (kg - 2 ^ f + kn <= - 2 ^ (i + f)) by lia.
        assert (X2 : (n + g <= q (g * n) + 1)%Q); [|lra].
        assert (L2 : (n <= q (g * n))%Q).
        { destruct (Qlt_le_dec 0 n) as [Gn|Ln].
          - exfalso. assert (0 < kn) by (apply inject_Z_lt_iff; rewrite <- In'; change (inject_Z 0) with 0%Q; nra). lia.
          - rewrite <- Fn at 1. apply fxq_mono. destruct Hg. nra. }
        destruct Hg; lra.
      - assert (Hz : Z.abs z <= 2 ^ (i + f) - 1) by (unfold z in *; lia).
        assert (Lz : (inject_Z z / qpow2 f <= q (g * n))%Q).
        { rewrite <- (fxq_fixed z Hz) at 1. apply fxq_mono. apply Qle_shift_div_r; [exact P|].
          unfold z, Z.sub. rewrite !inject_Z_plus, inject_Z_opp, <- Ig, <- In', <- E1.
          destruct Hg as [G0 G1]. assert (T : (0 <= (1 - g) * (1 - n))%Q) by (apply Qmult_le_0_compat; lra).
          assert (T2 : (0 <= (1 - g) * (1 - n) * qpow2 f)%Q) by (apply Qmult_le_0_compat; lra). lra. }
        assert (Ez : (inject_Z z / qpow2 f == g - 1 + n)%Q).
        { unfold z, Z.sub. rewrite !inject_Z_plus, inject_Z_opp, <- Ig, <- In', <- E1. field. lra. }
        lra. }
    intros Hg Hn Hh Fg Fn Fh. split; [|apply U; assumption].
    assert (Op : forall x, (q x == x)%Q -> (q (- x) == - x)%Q) by (intros x Ex; rewrite fxq_opp, Ex; reflexivity).
    pose proof (U g (- n) (- h) Hg)%Q as L. unfold in_unit in *.
    assert (E1 : (q (g * - n) == - q (g * n))%Q) by (rewrite <- fxq_opp; apply fxq_comp; ring).
    assert (E2 : (q (g * - h) == - q (g * h))%Q) by (rewrite <- fxq_opp; apply fxq_comp; ring).
    rewrite E1, E2 in L. specialize (L ltac:(lra) ltac:(lra) Fg (Op n Fn) (Op h Fh)). lra.
  Qed.
End Fxp.

Lemma fxq_clamp i f x : 0 <= i -> 0 <= f -> (round_fxp i f (qclamp (-1) 1 (round_fxp i f x)) == qclamp (-1) 1 (round_fxp i f x))%Q.
Proof.
  intros Hi Hf. set (y := round_fxp i f x). assert (Fy : (round_fxp i f y == y)%Q) by (apply (fxq_idem i f); assumption).
  destruct (fxq_grid i f Hi Hf x) as (k & Ek & Bk). fold y in Ek. pose proof (qpow2_pos f) as P.
  assert (E1 : (qpow2 f == inject_Z (2 ^ f))%Q) by (apply qpow2_Z; lia).
  assert (Iy : (y * qpow2 f == inject_Z k)%Q) by (rewrite Ek; field; lra).
  assert (O : forall s, (s = 1 \/ s = -1)%Z -> 2 ^ f <= 2 ^ (i + f) - 1 -> (round_fxp i f (inject_Z s) == inject_Z s)%Q).
  { intros s Hs B. assert (Es : (inject_Z s == inject_Z (s * 2 ^ f) / qpow2 f)%Q) by (rewrite inject_Z_mult, <- E1; field; lra).
    rewrite (fxq_comp i f Hi Hf _ _ Es). rewrite (fxq_fixed i f Hi Hf); [symmetry; exact Es|]. pose proof (Z.pow_pos_nonneg 2 f ltac:(lia) Hf). lia. }
  unfold qclamp, qmax. qcases; unfold qmin; qcases; try assumption; try (exfalso; lra).
  - apply (O (-1)); [auto|]. assert (k < - 2 ^ f \/ k = - 2 ^ f) as [L|L]; [|lia|].
    { destruct (Z_lt_le_dec k (- 2 ^ f)); [auto|right]. apply Z.le_antisymm; [|lia]. apply inject_Z_le_iff. rewrite inject_Z_opp, <- E1, <- Iy. nra. }
    subst k. lia.
  - apply (O 1); [auto|]. assert (2 ^ f <= k); [|lia]. apply inject_Z_le_iff. rewrite <- E1, <- Iy. nra.
Qed.

Theorem mgufxp_values : forall B H I i f p input hx, 0 <= i -> 0 <= f -> mgu_par_ok H I p -> qshape B I input ->
  (match hx with Some h => qshape B H h | None => True end) ->
  (forall b o, (b < B)%nat -> (o < H)%nat -> in_unit (state_entry hx b o)) ->
  let v := hardmgufxp_forward i f H p input hx in let q := round_fxp i f in
  qshape B H (mv_hy v) /\ forall b o, (b < B)%nat -> (o < H)%nat ->
  let wf := qentry (mg_wf p) in let wn := qentry (mg_wn p) in let bf := bias_entry (mg_bf p) in let bn := bias_entry (mg_bn p) in
  let h := state_entry hx b in let x := qentry input b in
  let g := mgu_forget q H I wf bf h x o in let n := mgu_new q H I wf wn bf bn h x o in
  (q (qentry (mv_fg v) b o) == g /\ 0 <= qentry (mv_fg v) b o <= 1 /\
   qentry (mv_ng v) b o == n /\ in_unit (qentry (mv_ng v) b o) /\
   in_unit (qentry (mv_fg_in v) b o) /\ in_unit (qentry (mv_fg_hx v) b o) /\ in_unit (qentry (mv_fg_ng v) b o) /\ in_unit (qentry (mv_fg_ng_inv v) b o) /\
   qentry (mv_hy v) b o == mgu_next_fxp q H I wf wn bf bn h x o /\ in_unit (qentry (mv_hy v) b o) /\ dyadic f (qentry (mv_hy v) b o) /\
   Qabs (qentry (mv_hy v) b o - ((1 - g) * n + g * q (h o))) <= 1 / Qpower 2 f)%Q.
Proof.
  intros B H I i f p input hx Hi Hf (Wf & Bf & Wn & Bn) Si Sh Hu v q. pose proof (hx_shape B H I input hx Si Sh) as Sx.
  pose proof (fun b o Hb Ho => qentry_hx B H I input hx b o Si Hb Ho) as Ex. unfold hardmgufxp_forward, mgufxp_forward in v. fold q in v.
  assert (Qc : forall a b, (a == b)%Q -> (q a == q b)%Q) by exact (fxq_comp i f Hi Hf).
  assert (Qi : forall a, (q (q a) == q a)%Q) by exact (fxq_idem i f Hi Hf).
  assert (Qu : forall a, in_unit a -> in_unit (q a)) by exact (fxq_unit i f Hi Hf).
  assert (Q01 : forall a, (0 <= a <= 1 -> 0 <= q a <= 1)%Q) by exact (fxq_01 i f Hi Hf).
  assert (Q0 : (q 0 == 0)%Q) by exact (fxq_0 i f Hi Hf).
  assert (Qo : forall a, (q (- a) == - q a)%Q) by exact (fxq_opp i f Hi Hf).
  assert (Qk : forall a, (q (qclamp (-1) 1 (q a)) == qclamp (-1) 1 (q a))%Q) by exact (fun a => fxq_clamp i f a Hi Hf).
  assert (Qx : forall g n h, (0 <= g <= 1)%Q -> in_unit n -> in_unit h -> (q g == g)%Q -> (q n == n)%Q -> (q h == h)%Q -> in_unit (n - q (g * n) + q (g * h))%Q)
    by exact (fxq_convex i f Hi Hf).
  assert (Qg : forall a, exists k, (q a == inject_Z k / qpow2 f)%Q /\ Z.abs k <= 2 ^ (i + f) - 1) by exact (fxq_grid i f Hi Hf).
  assert (Qe : forall a k, (Qabs a <= Qabs (inject_Z k / qpow2 f))%Q -> Z.abs k <= 2 ^ (i + f) - 1 -> (Qabs (q a - a) <= (1 # 2) / qpow2 f)%Q) by exact (fxq_error i f Hi Hf).
  set (hx1 := mgu_hx H input hx) in *. clearbody hx1.
  set (rb := round_forward i f) in *.
  assert (Rb : forall o n, bias_ok n o -> bias_ok n (rb o)) by (intros [l|] n; cbn; [rewrite map_length|]; auto).
  assert (Eb : forall l n o, (o < n)%nat -> bias_ok n l -> (bias_entry (rb l) o == q (bias_entry l o))%Q).
  { intros [l|] n o Ho Hl; cbn [bias_entry rb round_forward]; [|symmetry; exact Q0]. cbn in Hl. rewrite (map_nth_lt _ l o 0%Q 0%Q) by lia. reflexivity. }
  clearbody rb q.
  pose proof (bmap_shape q B H _ Sx) as Sxq. pose proof (bmap_shape q B I _ Si) as Siq.
  pose proof (bmap_shape q H (H + I) _ Wf) as Wfq. pose proof (bmap_shape q H (H + I) _ Wn) as Wnq.
  pose proof (bmap_shape q B _ _ (cat_shape B H I _ _ Sxq Siq)) as Sc. set (c1 := bmap q (cat1 (bmap q hx1) (bmap q input))) in *.
  pose proof (linear_shape B (H + I) H _ _ _ Sc Wfq (Rb _ _ Bf)) as Sl. set (lf := f_linear c1 _ _) in *.
  pose proof (bmap_shape hubhardtanh B H _ Sl) as Sfi. set (fg_in := bmap hubhardtanh lf) in *.
  pose proof (bmap_shape (hubhardsigmoid 3) B H _ (bmap_shape q B H _ Sfi)) as Sfg. set (fg := bmap (hubhardsigmoid 3) (bmap q fg_in)) in *.
  pose proof (bmap_shape q B H _ Sfg) as Sfgq.
  pose proof (bmap2_shape Qmult B H _ _ Sfgq Sxq) as Sfh. set (fg_hx := bmap2 Qmult (bmap q fg) (bmap q hx1)) in *.
  pose proof (bmap_shape q B H _ Sfh) as Sfhq. pose proof (bmap_shape q B _ _ (cat_shape B H I _ _ Sfhq Siq)) as Sc2.
  set (c2 := bmap q (cat1 (bmap q fg_hx) (bmap q input))) in *.
  pose proof (linear_shape B (H + I) H _ _ _ Sc2 Wnq (Rb _ _ Bn)) as Sl2. set (ln := f_linear c2 _ _) in *.
  pose proof (bmap_shape hubhardtanh B H _ (bmap_shape q B H _ Sl2)) as Sng. set (ng := bmap hubhardtanh (bmap q ln)) in *.
  pose proof (bmap_shape q B H _ Sng) as Sngq.
  pose proof (bmap2_shape Qmult B H _ _ Sfgq Sngq) as Sfn. set (fg_ng := bmap2 Qmult (bmap q fg) (bmap q ng)) in *.
  pose proof (bmap_shape q B H _ Sfn) as Sfnq.
  pose proof (bmap_shape (fun v => 0 - v)%Q B H _ Sfnq) as Sfi2. set (fg_ng_inv := bmap (fun v => 0 - v)%Q (bmap q fg_ng)) in *.
  pose proof (bmap_shape q B H _ Sfi2) as Sfi2q.
  pose proof (bmap2_shape Qplus B H _ _ Sngq Sfi2q) as Sp1. pose proof (bmap2_shape Qplus B H _ _ Sp1 Sfhq) as Sp2.
  pose proof (bmap_shape hubhardtanh B H _ Sp2) as Sy.
  assert (Ef : forall b o, (b < B)%nat -> (o < H)%nat ->
    (q (qentry fg b o) == mgu_forget q H I (qentry (mg_wf p)) (bias_entry (mg_bf p)) (state_entry hx b) (qentry input b) o)%Q).
  { intros b o Hb Ho. unfold fg. rewrite (qentry_bmap _ B H) by (try apply bmap_shape; assumption). apply Qc. rewrite hubhardsigmoid_value.
    apply qclamp_compx, Qmult_comp; [|reflexivity]. apply Qplus_comp; [|reflexivity].
    rewrite (qentry_bmap _ B H) by assumption. apply Qc.
    unfold fg_in. rewrite (qentry_bmap _ B H) by assumption. apply qclamp_compx. unfold lf. rewrite (qentry_linear B (H + I) H); [|assumption|assumption|apply Rb; assumption|assumption|assumption].
    apply Qplus_comp; [|apply (Eb _ H); assumption]. apply dotq_ext. intros j Hj. split; [|rewrite (qentry_bmap _ H (H + I)) by assumption; reflexivity].
    unfold c1. rewrite (qentry_bmap _ B (H + I)) by (try apply cat_shape; assumption). rewrite (qentry_cat B H I) by assumption.
    unfold joined. destruct (Nat.ltb_spec j H).
    - rewrite (qentry_bmap _ B H), Ex by assumption. apply Qi.
    - rewrite (qentry_bmap _ B I) by (try assumption; lia). apply Qi. }
  assert (En : forall b o, (b < B)%nat -> (o < H)%nat ->
    (qentry ng b o == mgu_new q H I (qentry (mg_wf p)) (qentry (mg_wn p)) (bias_entry (mg_bf p)) (bias_entry (mg_bn p)) (state_entry hx b) (qentry input b) o)%Q).
  { intros b o Hb Ho. unfold ng. rewrite (qentry_bmap _ B H) by (try apply bmap_shape; assumption). unfold mgu_new. apply qclamp_compx.
    rewrite (qentry_bmap _ B H) by assumption. apply Qc.
    unfold ln. rewrite (qentry_linear B (H + I) H); [|assumption|assumption|apply Rb; assumption|assumption|assumption].
    apply Qplus_comp; [|apply (Eb _ H); assumption]. apply dotq_ext. intros j Hj. split; [|rewrite (qentry_bmap _ H (H + I)) by assumption; reflexivity].
    unfold c2. rewrite (qentry_bmap _ B (H + I)) by (try apply cat_shape; assumption). rewrite (qentry_cat B H I) by assumption.
    unfold joined. destruct (Nat.ltb_spec j H).
    - rewrite (qentry_bmap _ B H) by assumption. etransitivity; [apply Qi|]. apply Qc. unfold fg_hx. rewrite (qentry_bmap2 _ B H) by assumption.
      rewrite !(qentry_bmap _ B H), Ex by assumption. rewrite Ef by assumption. reflexivity.
    - rewrite (qentry_bmap _ B I) by (try assumption; lia). apply Qi. }
  split; [exact Sy|]. intros b o Hb Ho wf wn bf bn h x g n. subst v. cbn [mv_fg mv_ng mv_fg_in mv_fg_hx mv_fg_ng mv_fg_ng_inv mv_hy].
  specialize (Ef b o Hb Ho). specialize (En b o Hb Ho). fold wf bf h x in Ef, En. fold wn bn in En. fold g in Ef. fold n in En.
  assert (F01 : (0 <= qentry fg b o <= 1)%Q).
  { unfold fg. rewrite (qentry_bmap _ B H) by (try apply bmap_shape; assumption). rewrite hubhardsigmoid_value. apply clamp_01. }
  assert (G01 : (0 <= g <= 1)%Q) by (rewrite <- Ef; apply Q01, F01).
  assert (Nu : in_unit n) by apply clamp_unit.
  specialize (Hu b o Hb Ho). fold h in Hu. pose proof (Qu _ Hu) as Hqu.
  assert (Fn : (q n == n)%Q) by apply Qk.
  assert (Fg : (q g == g)%Q) by apply Qi.
  assert (Eqn : (q (qentry ng b o) == n)%Q) by (rewrite (Qc _ _ En); exact Fn).
  assert (Eh : (qentry fg_hx b o == g * q (h o))%Q).
  { unfold fg_hx. rewrite (qentry_bmap2 _ B H), !(qentry_bmap _ B H), Ex by assumption. rewrite Ef. reflexivity. }
  assert (Efn : (qentry fg_ng b o == g * n)%Q).
  { unfold fg_ng. rewrite (qentry_bmap2 _ B H), !(qentry_bmap _ B H) by assumption. rewrite Ef, Eqn. reflexivity. }
  assert (Ei : (qentry fg_ng_inv b o == - q (g * n))%Q).
  { unfold fg_ng_inv. rewrite (qentry_bmap _ B H), (qentry_bmap _ B H) by assumption. rewrite (Qc _ _ Efn). ring. }
  assert (Ugh : in_unit (g * q (h o))) by (unfold in_unit in *; destruct G01; nra).
  assert (Ugn : in_unit (g * n)) by (unfold in_unit in *; destruct G01; nra).
  split; [exact Ef|]. split; [exact F01|]. split; [exact En|]. split; [unfold in_unit in *; lra|].
  split; [unfold fg_in; rewrite (qentry_bmap _ B H) by assumption; apply clamp_unit|].
  split; [unfold in_unit in *; lra|]. split; [unfold in_unit in *; lra|].
  pose proof (Qu _ Ugn) as Uq. split; [unfold in_unit in *; lra|].
  pose proof (Qx g n (q (h o)) G01 Nu Hqu Fg Fn (Qi _)) as C.
  assert (Ey : (qentry (bmap hubhardtanh (bmap2 Qplus (bmap2 Qplus (bmap q ng) (bmap q fg_ng_inv)) (bmap q fg_hx))) b o ==
    n - q (g * n) + q (g * q (h o)))%Q).
  { rewrite (qentry_bmap _ B H), !(qentry_bmap2 _ B H), !(qentry_bmap _ B H) by assumption.
    assert (E1 : (q (qentry fg_ng_inv b o) == - q (g * n))%Q) by (rewrite (Qc _ _ Ei), Qo, Qi; reflexivity).
    unfold hubhardtanh. rewrite (qclamp_compx _ _ _ (n - q (g * n) + q (g * q (h o)))%Q) by (rewrite Eqn, E1, (Qc _ _ Eh); ring).
    apply qclamp_id; apply C. }
  split; [rewrite Ey; reflexivity|]. split; [unfold in_unit in *; lra|].
  pose proof (qpow2_pos f) as P.
  destruct (Qg n) as (kn & Ekn & Bkn). rewrite Fn in Ekn.
  destruct (Qg (g * n)%Q) as (k1 & Ek1 & Bk1). destruct (Qg (g * q (h o))%Q) as (k2 & Ek2 & Bk2).
  destruct (Qg (h o)%Q) as (kh & Ekh & Bkh).
  split.
  - exists (kn - k1 + k2). rewrite Ey, Ek1, Ek2, Ekn. unfold Z.sub. rewrite !inject_Z_plus, inject_Z_opp.
    fold (qpow2 (- f)). assert (E1 : (qpow2 f * qpow2 (- f) == 1)%Q) by (rewrite <- qpow2_add, Z.add_opp_diag_r; reflexivity).
    assert (E2 : (qpow2 (- f) == / qpow2 f)%Q) by (apply (Qmult_inj_l _ _ (qpow2 f)); [lra|]; rewrite E1; field; lra).
    rewrite E2. field. lra.
  - assert (X : forall u k, (u == inject_Z k / qpow2 f)%Q -> Z.abs k <= 2 ^ (i + f) - 1 -> (Qabs (q (g * u) - g * u) <= (1 # 2) / qpow2 f)%Q).
    { intros u k Eu Bk. apply (Qe _ k); [|exact Bk]. rewrite <- Eu, Qabs_Qmult, (Qabs_pos g) by apply G01.
      pose proof (Qabs_nonneg u). destruct G01. nra. }
    pose proof (X n kn Ekn Bkn) as X1. pose proof (X (q (h o)) kh Ekh Bkh) as X2.
    apply Qabs_Qle_condition in X1, X2. apply Qabs_Qle_condition. fold (qpow2 f). rewrite Ey.
    assert (Eh2 : ((1 # 2) / qpow2 f == (1 # 2) * (1 / qpow2 f))%Q) by (field; lra). rewrite Eh2 in X1, X2. split; lra.
Qed.

(** Round is the fixed point quantisation of the specification. *)
Lemma round_fx i f x : 0 <= i + f -> (round_fxp i f x == fx_quant (2 ^ (i + f)) (- f) x)%Q.
Proof.
  intros H. rewrite (round_fxp_eq i f x H). unfold fx_quant, step_round. fold (qpow2 (- f)). pose proof (qpow2_pos f) as P.
  assert (E1 : (qpow2 f * qpow2 (- f) == 1)%Q) by (rewrite <- qpow2_add, Z.add_opp_diag_r; reflexivity).
  assert (E2 : (qpow2 (- f) == / qpow2 f)%Q) by (apply (Qmult_inj_l _ _ (qpow2 f)); [lra|]; rewrite E1; field; lra).
  assert (E3 : (x * qpow2 f == x / qpow2 (- f))%Q) by (rewrite E2; field; lra).
  rewrite (qround_comp _ _ E3). set (k := qround _). clearbody k. rewrite E2.
  assert (M : 0 < 2 ^ (i + f)) by (apply Z.pow_pos_nonneg; lia). set (m := 2 ^ (i + f)) in *.
  replace (zclamp (- (m - 1)) (m - 1) k) with (Z.max (1 - m) (Z.min (m - 1) k)) by (unfold zclamp; lia). reflexivity.
Qed.

Section Quantisers.
  Variables (q r : Q -> Q) (Hr : forall a b, (a == b)%Q -> (r a == r b)%Q) (E : forall a, (q a == r a)%Q).
  Variables (H I : nat) (wf wn : nat -> nat -> Q) (bf bn : nat -> Q) (h x : nat -> Q).
  Let E2 a b : (a == b)%Q -> (q a == r b)%Q. Proof. intros e. rewrite E. apply Hr, e. Qed.
  Lemma forget_quant o : (mgu_forget q H I wf bf h x o == mgu_forget r H I wf bf h x o)%Q.
  Proof.
    unfold mgu_forget. apply E2, qclamp_compx, Qmult_comp; [|reflexivity]. apply Qplus_comp; [|reflexivity]. apply E2, qclamp_compx.
    apply Qplus_comp; [|apply E]. apply dotq_ext. intros i _. split; apply E.
  Qed.
  Lemma new_quant o : (mgu_new q H I wf wn bf bn h x o == mgu_new r H I wf wn bf bn h x o)%Q.
  Proof.
    unfold mgu_new. apply qclamp_compx, E2. apply Qplus_comp; [|apply E]. apply dotq_ext. intros i Hi. split; [|apply E].
    apply (joined_ext H I); [exact Hi| |intros; apply E]. intros j _. apply E2, Qmult_comp; [apply forget_quant|apply E].
  Qed.
  Lemma next_quant o : (mgu_next_fxp q H I wf wn bf bn h x o == mgu_next_fxp r H I wf wn bf bn h x o)%Q.
  Proof.
    unfold mgu_next_fxp. cbn zeta. pose proof (forget_quant o) as F. pose proof (new_quant o) as N.
    assert (P1 : (q (mgu_forget q H I wf bf h x o * mgu_new q H I wf wn bf bn h x o) == r (mgu_forget r H I wf bf h x o * mgu_new r H I wf wn bf bn h x o))%Q)
      by (apply E2, Qmult_comp; assumption).
    assert (P2 : (q (mgu_forget q H I wf bf h x o * q (h o)) == r (mgu_forget r H I wf bf h x o * r (h o)))%Q)
      by (apply E2, Qmult_comp; [assumption|apply E]).
    rewrite P1, P2, N. reflexivity.
  Qed.
End Quantisers.

Lemma fxp_next_ext q H I wf wn bf bn h h' x o : (forall a b, (a == b)%Q -> (q a == q b)%Q) -> (o < H)%nat -> (forall j, (j < H)%nat -> (h j == h' j)%Q) ->
  (mgu_next_fxp q H I wf wn bf bn h x o == mgu_next_fxp q H I wf wn bf bn h' x o)%Q.
Proof.
  intros Hq Ho E. unfold mgu_next_fxp. cbn zeta.
  pose proof (forget_ext q Hq H I wf bf h h' x x o E ltac:(intros; reflexivity)) as E1.
  pose proof (new_ext q Hq H I wf wn bf bn h h' x x o E ltac:(intros; reflexivity)) as E2.
  assert (P1 : (q (mgu_forget q H I wf bf h x o * mgu_new q H I wf wn bf bn h x o) == q (mgu_forget q H I wf bf h' x o * mgu_new q H I wf wn bf bn h' x o))%Q)
    by (apply Hq, Qmult_comp; assumption).
  assert (P2 : (q (mgu_forget q H I wf bf h x o * q (h o)) == q (mgu_forget q H I wf bf h' x o * q (h' o)))%Q)
    by (apply Hq, Qmult_comp; [assumption|apply Hq, E, Ho]).
  rewrite P1, P2, E2. reflexivity.
Qed.

Lemma fx_quant_comp m r a b : (a == b)%Q -> (fx_quant m r a == fx_quant m r b)%Q.
Proof.
  intros E. unfold fx_quant, step_round. assert (E' : (a / Qpower 2 r == b / Qpower 2 r)%Q) by (rewrite E; reflexivity).
  rewrite (qround_comp _ _ E'). reflexivity.
Qed.

Theorem mgufxp_sequence : forall B H I i f p hx inputs, 0 <= i -> 0 <= f -> mgu_par_ok H I p -> unit_state B H hx -> Forall (qshape B I) inputs ->
  let vs := outs (cell_step (hardmgufxp_forward i f H p)) hx inputs in
  forall t, (t < length inputs)%nat -> exists v, nth_error vs t = Some v /\ qshape B H (mv_hy v) /\
    forall b o, (b < B)%nat -> (o < H)%nat ->
    in_unit (qentry (mv_hy v) b o) /\ dyadic f (qentry (mv_hy v) b o) /\
    (qentry (mv_hy v) b o ==
     mgu_after (mgu_next_fxp (fx_quant (2 ^ (i + f)) (- f)) H I (qentry (mg_wf p)) (qentry (mg_wn p)) (bias_entry (mg_bf p)) (bias_entry (mg_bn p)))
       (state_entry hx b) (map (fun x => qentry x b) (firstn (S t) inputs)) o)%Q.
Proof.
  intros B H I i f p hx inputs Hi Hf Hp Hu Hin vs. subst vs. revert hx Hu Hin.
  set (q := fx_quant (2 ^ (i + f)) (- f)).
  assert (Qc : forall a b, (a == b)%Q -> (q a == q b)%Q) by (intros a b; apply fx_quant_comp).
  assert (Qr : forall a, (round_fxp i f a == q a)%Q) by (intros a; apply round_fx; lia).
  set (nx := mgu_next_fxp q H I (qentry (mg_wf p)) (qentry (mg_wn p)) (bias_entry (mg_bf p)) (bias_entry (mg_bn p))).
  assert (Ext : forall b xs h h', (forall j, (j < H)%nat -> (h j == h' j)%Q) -> forall o, (o < H)%nat ->
     (mgu_after nx h (map (fun x => qentry x b) xs) o == mgu_after nx h' (map (fun x => qentry x b) xs) o)%Q).
  { intros b. induction xs as [|x xs IH]; intros h h' E o Ho; [apply E, Ho|]. cbn [map]. unfold mgu_after. cbn [fold_left].
    apply IH; [|exact Ho]. intros j Hj. apply fxp_next_ext; assumption. }
  induction inputs as [|x inputs IH]; intros hx Hu Hin t Ht; [cbn in Ht; lia|].
  pose proof (Forall_inv Hin) as Sx. apply Forall_inv_tail in Hin.
  assert (Sh : match hx with Some h => qshape B H h | None => True end) by (destruct hx; [apply Hu|exact Logic.I]).
  destruct (mgufxp_values B H I i f p x hx Hi Hf Hp Sx Sh (fun b o => unit_state_entry B H hx b o Hu)) as [Sy V]. cbn zeta in Sy, V.
  rewrite outs_cons. set (v := hardmgufxp_forward i f H p x hx) in *.
  assert (Ef : fst (cell_step (hardmgufxp_forward i f H p) hx x) = Some (mv_hy v)) by reflexivity.
  assert (Es : snd (cell_step (hardmgufxp_forward i f H p) hx x) = v) by reflexivity. rewrite Ef, Es. clear Ef Es. clearbody v.
  assert (V1 : forall b o, (b < B)%nat -> (o < H)%nat -> in_unit (qentry (mv_hy v) b o) /\ dyadic f (qentry (mv_hy v) b o) /\
    (qentry (mv_hy v) b o == nx (state_entry hx b) (qentry x b) o)%Q).
  { intros b o Hb Ho. destruct (V b o Hb Ho) as (_ & _ & _ & _ & _ & _ & _ & _ & E & U & D & _). split; [exact U|]. split; [exact D|].
    rewrite E. apply next_quant; assumption. }
  clear V. destruct t as [|t].
  - exists v. split; [reflexivity|]. split; [exact Sy|]. intros b o Hb Ho. apply V1; assumption.
  - cbn [length] in Ht. destruct (IH (Some (mv_hy v))) with (t := t) as (v' & N & S' & V'); [|exact Hin|lia|].
    { split; [exact Sy|]. intros b o Hb Ho. apply (V1 b o Hb Ho). }
    exists v'. split; [exact N|]. split; [exact S'|]. intros b o Hb Ho. destruct (V' b o Hb Ho) as (U' & D' & E').
    split; [exact U'|]. split; [exact D'|]. rewrite E'. replace (map (fun x0 => qentry x0 b) (firstn (S (S t)) (x :: inputs)))
      with (qentry x b :: map (fun x0 => qentry x0 b) (firstn (S t) inputs)) by reflexivity.
    unfold mgu_after at 2. cbn [fold_left]. apply Ext; [|exact Ho]. intros j Hj. cbn [state_entry]. apply (V1 b j Hb Hj).
Qed.
