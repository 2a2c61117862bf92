(** Proofs about /repo/kernel/utils.py. *)
From Coq Require Import String.
Require Import Verif.BaseLemmas Verif.GenProof Verif.AddProof Verif.MetricProof Verif.UtilsModel.
From Coq Require Import Lqa Qpower.
Open Scope string_scope.
Open Scope list_scope.
Open Scope Z_scope.

(** ** Weight clipper *)
Lemma clip_quant_eq lo g x L G : (lo == inject_Z L)%Q -> (g == inject_Z G)%Q -> 0 < G ->
  (inject_Z L <= x * inject_Z G)%Q -> (x <= 1)%Q ->
  (clip_quant lo g x == inject_Z (qround (x * inject_Z G)) / inject_Z G)%Q.
Proof.
  intros El Eg HG Hl Hh. pose proof (inject_pos G HG) as PG. unfold clip_quant.
  assert (Er : qround (x * g) = qround (x * inject_Z G)) by (apply qround_comp; rewrite Eg; reflexivity).
  rewrite Er. set (R := qround (x * inject_Z G)).
  assert (B : L <= R <= G) by (apply qround_between; [exact Hl|nra]).
  assert (C : (qclamp lo g (inject_Z R) == inject_Z R)%Q).
  { apply qclamp_id; [rewrite El|rewrite Eg]; apply inject_Z_le_iff; lia. }
  rewrite C, Eg. reflexivity.
Qed.

Definition half_bits (m : mode) (n : nat) : nat := match m with Unipolar => n | Bipolar => pred n end.
Definition grid_lo (m : mode) (n : nat) : Z := match m with Unipolar => 0 | Bipolar => - p2 (pred n) end.
Definition mode_quant (m : mode) (n : nat) (x : Q) : Q :=
  match m with
  | Unipolar => clip_quant 0 (inject_Z (p2 n)) x
  | Bipolar => clip_quant (- (inject_Z (p2 n) / 2)) (inject_Z (p2 n) / 2) x
  end%Q.

Lemma half_pow n : (1 <= n)%nat -> (inject_Z (p2 n) / 2 == inject_Z (p2 (pred n)))%Q.
Proof.
  intros H. destruct n; [lia|]. cbn [pred]. rewrite p2_S, inject_Z_mult. change (inject_Z 2) with 2%Q. field.
Qed.

Lemma grid_step_eq m n : (m = Bipolar -> (1 <= n)%nat) -> (grid_step m n == 1 / inject_Z (p2 (half_bits m n)))%Q.
Proof.
  intros H. destruct m; cbn [grid_step half_bits]; [reflexivity|].
  rewrite <- (half_pow n (H eq_refl)). pose proof (p2Q_pos n). field. lra.
Qed.

Lemma mode_quant_eq m n x : (m = Bipolar -> (1 <= n)%nat) -> src_ok m x ->
  (mode_quant m n x == inject_Z (qround (x * inject_Z (p2 (half_bits m n)))) / inject_Z (p2 (half_bits m n)))%Q.
Proof.
  intros H Hs. pose proof (p2Q_pos (half_bits m n)) as P. destruct m; cbn [mode_quant half_bits src_ok] in *.
  - apply (clip_quant_eq _ _ _ 0); [reflexivity|reflexivity|apply p2_pos| |apply Hs]. change (inject_Z 0) with 0%Q. nra.
  - apply (clip_quant_eq _ _ _ (- p2 (pred n))); [|apply half_pow, H; reflexivity|apply p2_pos| |apply Hs].
    + rewrite (half_pow n (H eq_refl)), inject_Z_opp. reflexivity.
    + rewrite inject_Z_opp. nra.
Qed.

Lemma mode_quant_grid m n x : (m = Bipolar -> (1 <= n)%nat) -> src_ok m x ->
  on_grid m n (mode_quant m n x) /\ (Qabs (mode_quant m n x - x) <= grid_step m n / 2)%Q.
Proof.
  intros H Hs. set (G := p2 (half_bits m n)). pose proof (p2_pos (half_bits m n)) as PG. fold G in PG.
  pose proof (inject_pos G PG) as PQ.
  pose proof (mode_quant_eq m n x H Hs) as E. pose proof (grid_step_eq m n H) as Es. fold G in E, Es.
  set (R := qround (x * inject_Z G)) in *.
  assert (B : (if m then 0 else - G) <= R <= G).
  { destruct m; cbn [src_ok] in Hs; apply qround_between; try (rewrite ?inject_Z_opp; change (inject_Z 0) with 0%Q; nra). }
  assert (BQ : (inject_Z (if m then 0 else - G) <= inject_Z R /\ inject_Z R <= inject_Z G)%Q) by (split; apply inject_Z_le_iff; lia).
  split; [split|].
  - exists R. rewrite E, Es. field. lra.
  - destruct m; cbn [src_ok]; rewrite E; (split; [apply Qle_shift_div_l|apply Qle_shift_div_r]; try exact PQ).
    + change (inject_Z 0) with 0%Q in BQ. lra.
    + lra.
    + rewrite inject_Z_opp in BQ. lra.
    + lra.
  - rewrite E, Es. pose proof (qround_bounds (x * inject_Z G)) as Hr. fold R in Hr.
    setoid_replace (1 / inject_Z G / 2)%Q with ((1 # 2) / inject_Z G)%Q by (field; lra).
    setoid_replace (inject_Z R / inject_Z G - x)%Q with ((inject_Z R - x * inject_Z G) / inject_Z G)%Q by (field; lra).
    apply Qabs_Qle_condition. split.
    + setoid_replace (- ((1 # 2) / inject_Z G))%Q with (-(1 # 2) / inject_Z G)%Q by (field; lra).
      apply Qmult_le_compat_r; [lra|]. apply Qlt_le_weak, Qinv_lt_0_compat, PQ.
    + apply Qmult_le_compat_r; [lra|]. apply Qlt_le_weak, Qinv_lt_0_compat, PQ.
Qed.

Lemma mode_quant_fix m n y : (m = Bipolar -> (1 <= n)%nat) -> on_grid m n y -> (mode_quant m n y == y)%Q.
Proof.
  intros H [[k Ek] Hs]. rewrite (mode_quant_eq m n y H Hs). set (G := p2 (half_bits m n)).
  pose proof (p2Q_pos (half_bits m n)) as PQ. fold G in PQ.
  assert (E : (y * inject_Z G == inject_Z k)%Q) by (rewrite Ek, (grid_step_eq m n H); fold G; field; lra).
  rewrite (qround_comp _ _ E), qround_Z. rewrite <- E. field. lra.
Qed.

Lemma mode_clamp_ok m x : src_ok m (mode_clamp m x).
Proof. destruct m; cbn [mode_clamp src_ok]; apply qclamp_range; discriminate. Qed.
Lemma mode_clamp_id m x : src_ok m x -> (mode_clamp m x == x)%Q.
Proof. intros H. destruct m; cbn [mode_clamp src_ok] in *; apply qclamp_id; tauto. Qed.

Lemma clip_quant_comp lo g x x' : (x == x')%Q -> (clip_quant lo g x == clip_quant lo g x')%Q.
Proof.
  intros E. unfold clip_quant. rewrite (qround_comp (x * g) (x' * g)) by (rewrite E; reflexivity). reflexivity.
Qed.
Lemma mode_quant_comp m n x x' : (x == x')%Q -> (mode_quant m n x == mode_quant m n x')%Q.
Proof. intros E. destruct m; apply clip_quant_comp, E. Qed.

Lemma clipping_clip m n w : clipping m Clip n w = Ok (Some (map (fun x => mode_quant m n (mode_clamp m x)) w)).
Proof. destruct m; reflexivity. Qed.

Lemma Forall2_map_r {A B} (R : A -> B -> Prop) (f : A -> B) l : (forall x, In x l -> R x (f x)) -> Forall2 R l (map f l).
Proof. induction l; intros H; cbn [map]; constructor; [apply H; left; reflexivity|]. apply IHl. intros. apply H. right. assumption. Qed.

Theorem clip_spec : forall m n w, (m = Bipolar -> (1 <= n)%nat) ->
  exists w', clipping m Clip n w = Ok (Some w') /\
    Forall2 (fun x y => on_grid m n y /\ (Qabs (y - mode_clamp m x) <= grid_step m n / 2)%Q) w w'.
Proof.
  intros m n w H. rewrite clipping_clip. eexists. split; [reflexivity|].
  apply Forall2_map_r. intros x _. apply mode_quant_grid; [exact H|]. apply mode_clamp_ok.
Qed.

Lemma clip_fix m n w : (m = Bipolar -> (1 <= n)%nat) -> Forall (on_grid m n) w ->
  exists w', clipping m Clip n w = Ok (Some w') /\ Forall2 Qeq w w'.
Proof.
  intros H Hw. rewrite clipping_clip. eexists. split; [reflexivity|].
  apply Forall2_map_r. intros x Hx. rewrite Forall_forall in Hw. specialize (Hw x Hx).
  rewrite (mode_quant_comp m n _ x (mode_clamp_id m x (proj2 Hw))). symmetry. apply mode_quant_fix; assumption.
Qed.

(** Minimum and maximum of a list. *)
Lemma qmin_le_l a b : (qmin a b <= a)%Q. Proof. unfold qmin. qcases; lra. Qed.
Lemma qmin_le_r a b : (qmin a b <= b)%Q. Proof. unfold qmin. qcases; lra. Qed.
Lemma qmax_ge_l a b : (a <= qmax a b)%Q. Proof. unfold qmax. qcases; lra. Qed.
Lemma qmax_ge_r a b : (b <= qmax a b)%Q. Proof. unfold qmax. qcases; lra. Qed.

Lemma fold_qmin l : forall x, let r := fold_left qmin l x in (r = x \/ In r l) /\ (r <= x)%Q /\ Forall (fun y => (r <= y)%Q) l.
Proof.
  induction l as [|y l IH]; intros x; cbn zeta; cbn [fold_left].
  - repeat split; [left; reflexivity|apply Qle_refl|constructor].
  - destruct (IH (qmin x y)) as (I1 & I2 & I3). cbn zeta in *. set (r := fold_left qmin l (qmin x y)) in *. clearbody r.
    pose proof (qmin_le_l x y). pose proof (qmin_le_r x y). split; [|split].
    + destruct I1 as [->|I1]; [|right; right; exact I1]. unfold qmin. destruct (Qle_bool x y); [left|right; left]; reflexivity.
    + lra.
    + constructor; [lra|exact I3].
Qed.
Lemma fold_qmax l : forall x, let r := fold_left qmax l x in (r = x \/ In r l) /\ (x <= r)%Q /\ Forall (fun y => (y <= r)%Q) l.
Proof.
  induction l as [|y l IH]; intros x; cbn zeta; cbn [fold_left].
  - repeat split; [left; reflexivity|apply Qle_refl|constructor].
  - destruct (IH (qmax x y)) as (I1 & I2 & I3). cbn zeta in *. set (r := fold_left qmax l (qmax x y)) in *. clearbody r.
    pose proof (qmax_ge_l x y). pose proof (qmax_ge_r x y). split; [|split].
    + destruct I1 as [->|I1]; [|right; right; exact I1]. unfold qmax. destruct (Qle_bool x y); [right; left|left]; reflexivity.
    + lra.
    + constructor; [lra|exact I3].
Qed.

Lemma min_max_extremes w : w <> [] -> extremes w (qmin_list w) (qmax_list w).
Proof.
  destruct w as [|x l]; [contradiction|]. intros _. cbn [qmin_list qmax_list].
  destruct (fold_qmin l x) as (A1 & A2 & A3). destruct (fold_qmax l x) as (B1 & B2 & B3). cbn zeta in *.
  split; [|split].
  - destruct A1 as [->|A1]; [left; reflexivity|right; exact A1].
  - destruct B1 as [->|B1]; [left; reflexivity|right; exact B1].
  - constructor; [split; assumption|]. rewrite Forall_forall in *. intros y Hy. split; auto.
Qed.

Lemma extremes_unique w lo hi lo' hi' : extremes w lo hi -> extremes w lo' hi' -> (lo == lo')%Q /\ (hi == hi')%Q.
Proof.
  intros (A1 & A2 & A3) (B1 & B2 & B3). rewrite Forall_forall in *.
  pose proof (A3 _ B1). pose proof (A3 _ B2). pose proof (B3 _ A1). pose proof (B3 _ A2). split; apply Qle_antisym; tauto.
Qed.

Lemma extremes_shift w lo hi c : extremes w lo hi -> extremes (map (fun x => x - c)%Q w) (lo - c) (hi - c).
Proof.
  intros (A1 & A2 & A3). split; [|split].
  - apply (in_map (fun x => x - c)%Q _ _ A1).
  - apply (in_map (fun x => x - c)%Q _ _ A2).
  - apply Forall_forall. intros y Hy. apply in_map_iff in Hy. destruct Hy as (x & <- & Hx). rewrite Forall_forall in A3.
    specialize (A3 x Hx). cbn beta. lra.
Qed.

Lemma src_affine m x : (0 <= x)%Q -> (x <= 1)%Q -> src_ok m (mode_affine m x).
Proof. intros. destruct m; cbn [src_ok mode_affine]; lra. Qed.

Theorem norm_spec : forall m n w lo hi, (m = Bipolar -> (1 <= n)%nat) -> extremes w lo hi ->
  ((lo == hi)%Q -> clipping m Norm n w = Ok None) /\
  ((lo < hi)%Q -> exists w', clipping m Norm n w = Ok (Some w') /\
     Forall2 (fun x y => on_grid m n y /\
       (Qabs (y - mode_affine m ((x - lo) / (hi - lo))) <= grid_step m n / 2)%Q /\
       ((x == lo)%Q -> (y == mode_affine m 0)%Q) /\ ((x == hi)%Q -> (y == mode_affine m 1)%Q)) w w').
Proof.
  intros m n w lo hi H Hx. assert (Hne : w <> []) by (destruct w; [destruct Hx as [[] _]|discriminate]).
  pose proof (min_max_extremes w Hne) as Hm. destruct (extremes_unique _ _ _ _ _ Hx Hm) as [Elo Ehi].
  set (c := qmin_list w) in *.
  pose proof (extremes_shift w lo hi c Hx) as Hs.
  assert (Hne1 : map (fun x => x - c)%Q w <> []) by (destruct w; [contradiction|discriminate]).
  pose proof (min_max_extremes _ Hne1) as Hm1. destruct (extremes_unique _ _ _ _ _ Hs Hm1) as [Elo1 Ehi1].
  set (w1 := map (fun x => x - c)%Q w) in *. set (d := (qmax_list w1 - qmin_list w1)%Q).
  assert (Ed : (d == hi - lo)%Q) by (unfold d; rewrite <- Elo1, <- Ehi1; ring).
  assert (Ecl : clipping m Norm n w = if Qeq_bool d 0 then Ok None else
     Ok (Some (map (fun x => mode_quant m n (match m with Unipolar => x | Bipolar => (x * 2 - 1)%Q end)) (map (fun x => x / d)%Q w1)))).
  { unfold clipping. destruct w as [|a w0]; [contradiction|]. fold c w1 d. destruct (Qeq_bool d 0); [reflexivity|]. destruct m; reflexivity. }
  rewrite Ecl. split.
  - intros E. destruct (Qeq_bool d 0) eqn:Eb; [reflexivity|]. apply Qeq_bool_neq in Eb. exfalso. apply Eb. rewrite Ed, E. ring.
  - intros L. destruct (Qeq_bool d 0) eqn:Eb; [apply Qeq_bool_eq in Eb; lra|].
    eexists. split; [reflexivity|]. unfold w1. rewrite !map_map. apply Forall2_map_r. intros x Hin.
    destruct Hx as (_ & _ & Hr). rewrite Forall_forall in Hr. specialize (Hr x Hin). cbn beta in Hr.
    set (y := ((x - lo) / (hi - lo))%Q).
    assert (Y0 : (0 <= y)%Q) by (apply Qle_shift_div_l; lra).
    assert (Y1 : (y <= 1)%Q) by (apply Qle_shift_div_r; lra).
    assert (Ey : ((match m with Unipolar => (x - c) / d | Bipolar => (x - c) / d * 2 - 1 end) == mode_affine m y)%Q).
    { assert (Eq : ((x - c) / d == y)%Q) by (unfold y; rewrite Ed, <- Elo; reflexivity).
      destruct m; cbn [mode_affine]; rewrite Eq; ring. }
    pose proof (mode_quant_comp m n _ _ Ey) as Eq. pose proof (mode_quant_grid m n _ H (src_affine m y Y0 Y1)) as [G1 G2].
    split; [|split].
    + destruct G1 as [[k Ek] G1]. split; [exists k; rewrite Eq; exact Ek|]. destruct m; cbn [src_ok] in *; rewrite Eq; exact G1.
    + rewrite Eq. exact G2.
    + assert (Fix : forall t, on_grid m n (mode_affine m t) -> (y == t)%Q ->
        (mode_quant m n match m with Unipolar => (x - c) / d | Bipolar => (x - c) / d * 2 - 1 end == mode_affine m t)%Q).
      { intros t Ht Et. rewrite Eq. rewrite <- (mode_quant_fix m n (mode_affine m t) H Ht). apply mode_quant_comp.
        destruct m; cbn [mode_affine]; rewrite Et; reflexivity. }
      pose proof (p2Q_pos (half_bits m n)) as PQ.
      split; intros Ex.
      * apply Fix.
        -- split; [|apply src_affine; discriminate].
           destruct m; cbn [mode_affine]; [exists 0|exists (- p2 (half_bits Bipolar n))];
             rewrite (grid_step_eq _ n H), ?inject_Z_opp; change (inject_Z 0) with 0%Q; field; lra.
        -- unfold y. rewrite Ex. field. lra.
      * apply Fix.
        -- split; [|apply src_affine; discriminate].
           destruct m; cbn [mode_affine]; [exists (p2 (half_bits Unipolar n))|exists (p2 (half_bits Bipolar n))];
             rewrite (grid_step_eq _ n H); field; lra.
        -- unfold y. rewrite Ex. field. lra.
Qed.

Theorem clip_idempotent : forall m n meth w w', (m = Bipolar -> (1 <= n)%nat) -> clipping m meth n w = Ok (Some w') ->
  exists w'', clipping m Clip n w' = Ok (Some w'') /\ Forall2 Qeq w' w''.
Proof.
  intros m n meth w w' H E. apply clip_fix; [exact H|]. destruct meth.
  - destruct (clip_spec m n w H) as (v & Ev & F). assert (v = w') by congruence. subst v.
    clear E Ev. induction F as [|x y l l' [Hg _] F IH]; constructor; auto.
  - assert (Hne : w <> []) by (intros ->; destruct m; discriminate).
    destruct (norm_spec m n w _ _ H (min_max_extremes w Hne)) as [N1 N2].
    destruct (Qlt_le_dec (qmin_list w) (qmax_list w)) as [L|L].
    + destruct (N2 L) as (v & Ev & F). assert (v = w') by congruence. subst v.
      clear - F. induction F as [|x y l l' [Hg _] F IH]; constructor; auto.
    + destruct (min_max_extremes w Hne) as (A1 & A2 & A3). rewrite Forall_forall in A3. pose proof (A3 _ A1).
      rewrite N1 in E by lra. discriminate.
Qed.

(** Calls. What one call does to one attribute, for a method and a mode name. *)
Inductive attr_after (mode_name : string) (meth : clip_method) (n : nat) : attr -> attr -> option pyerr -> Prop :=
  | after_missing : attr_after mode_name meth n Missing Missing None
  | after_none : attr_after mode_name meth n IsNone IsNone (Some AttributeError)
  | after_mode : forall w, mode_name <> "unipolar" -> mode_name <> "bipolar" ->
      attr_after mode_name meth n (Tensor w) (Tensor w) (Some TypeError)
  | after_unipolar : forall w r, mode_name = "unipolar" -> clipping Unipolar meth n w = Ok r ->
      attr_after mode_name meth n (Tensor (Some w)) (Tensor r) None
  | after_bipolar : forall w r, mode_name = "bipolar" -> clipping Bipolar meth n w = Ok r ->
      attr_after mode_name meth n (Tensor (Some w)) (Tensor r) None
  | after_nan : mode_name = "unipolar" \/ mode_name = "bipolar" ->
      attr_after mode_name meth n (Tensor None) (Tensor None) None
  | after_empty : mode_name = "unipolar" \/ mode_name = "bipolar" -> meth = Norm ->
      attr_after mode_name meth n (Tensor (Some [])) (Tensor (Some [])) (Some RuntimeError).

Lemma clipping_err m meth n w e : clipping m meth n w = Err e -> meth = Norm /\ w = [] /\ e = RuntimeError.
Proof.
  unfold clipping. destruct meth; [discriminate|]. destruct w as [|x w]; [intros E; injection E as <-; auto|].
  destruct (Qeq_bool _ 0); discriminate.
Qed.

Lemma clip_attr_after ms meth n a : attr_after ms meth n a (fst (clip_attr ms meth n a)) (snd (clip_attr ms meth n a)).
Proof.
  unfold clip_attr, clip_mode. destruct a as [| |w]; [constructor|constructor|].
  destruct (String.eqb_spec ms "unipolar") as [E|E];
    [|destruct (String.eqb_spec ms "bipolar") as [E2|E2]; [|cbn [fst snd]; constructor; assumption]].
  - destruct w as [w|]; [|cbn [fst snd]; apply after_nan; tauto].
    destruct (clipping Unipolar meth n w) eqn:C; cbn [fst snd]; [apply after_unipolar; assumption|].
    destruct (clipping_err _ _ _ _ _ C) as (-> & -> & ->). apply after_empty; tauto.
  - destruct w as [w|]; [|cbn [fst snd]; apply after_nan; tauto].
    destruct (clipping Bipolar meth n w) eqn:C; cbn [fst snd]; [apply after_bipolar; assumption|].
    destruct (clipping_err _ _ _ _ _ C) as (-> & -> & ->). apply after_empty; tauto.
Qed.

Lemma attr_after_det ms meth n a b e : attr_after ms meth n a b e -> clip_attr ms meth n a = (b, e).
Proof.
  intros H; destruct H; unfold clip_attr, clip_mode.
  - reflexivity.
  - reflexivity.
  - destruct (String.eqb_spec ms "unipolar"); [contradiction|]. destruct (String.eqb_spec ms "bipolar"); [contradiction|reflexivity].
  - rewrite H. cbn [String.eqb Ascii.eqb Bool.eqb]. rewrite H0. reflexivity.
  - rewrite H. cbn [String.eqb Ascii.eqb Bool.eqb]. rewrite H0. reflexivity.
  - destruct H as [-> | ->]; reflexivity.
  - destruct H as [-> | ->]; subst; reflexivity.
Qed.

Theorem clip_call_spec : forall c w b c' w' b' e,
  clip_call c {| m_weight := w; m_bias := b |} = (c', {| m_weight := w'; m_bias := b' |}, e) <->
  exists meth ew eb,
    (cl_freq c <= 1 -> meth = Norm) /\ (1 < cl_freq c -> meth = Clip) /\
    attr_after (cl_mode c) meth (cl_bits c) w w' ew /\
    (ew = None -> attr_after (cl_mode c) meth (cl_bits c) b b' eb /\ e = eb) /\
    (ew <> None -> b' = b /\ e = ew) /\
    c' = {| cl_freq := cl_freq c + (if e then 0 else 1); cl_mode := cl_mode c; cl_method := meth; cl_bits := cl_bits c |}.
Proof.
  intros c w b c' w' b' e. unfold clip_call. cbn zeta. cbn [m_weight m_bias].
  set (meth := if cl_freq c >? 1 then Clip else Norm).
  assert (M : (cl_freq c <= 1 -> meth = Norm) /\ (1 < cl_freq c -> meth = Clip)).
  { unfold meth. destruct (Z.gtb_spec (cl_freq c) 1); split; intros; try reflexivity; lia. }
  pose proof (clip_attr_after (cl_mode c) meth (cl_bits c) w) as Aw.
  pose proof (clip_attr_after (cl_mode c) meth (cl_bits c) b) as Ab.
  split.
  - intros E. exists meth.
    destruct (clip_attr (cl_mode c) meth (cl_bits c) w) as [w1 [ew|]]; cbn [fst snd] in Aw.
    + injection E as <- <- <- <-. exists (Some ew), None. rewrite Z.add_0_r.
      (split; [|split; [|split; [|split; [|split]]]]); try tauto; try (intros; discriminate).
    + destruct (clip_attr (cl_mode c) meth (cl_bits c) b) as [b1 [eb|]]; cbn [fst snd] in Ab.
      * injection E as <- <- <- <-. exists None, (Some eb). rewrite Z.add_0_r.
        (split; [|split; [|split; [|split; [|split]]]]); try tauto; try (intros; congruence).
      * injection E as <- <- <- <-. exists None, None.
        (split; [|split; [|split; [|split; [|split]]]]); try tauto; try (intros; congruence).
  - intros (meth' & ew & eb & M1 & M2 & A1 & A2 & A3 & ->).
    assert (meth' = meth).
    { destruct (Z_le_gt_dec (cl_freq c) 1) as [L|L]; [rewrite (M1 L); symmetry; apply M, L|].
      rewrite M2 by lia. symmetry. apply M. lia. }
    subst meth'. clear Aw Ab. rewrite (attr_after_det _ _ _ _ _ _ A1). destruct ew as [x|].
    + destruct A3 as [-> ->]; [discriminate|]. rewrite Z.add_0_r. reflexivity.
    + destruct (A2 eq_refl) as [A ->]. rewrite (attr_after_det _ _ _ _ _ _ A). destruct eb; [rewrite Z.add_0_r|]; reflexivity.
Qed.

(** A sequence of calls: the clipper goes on after an exception was caught. *)
Fixpoint clip_calls (c : clipper) (mds : list module_) : clipper * list (module_ * option pyerr) :=
  match mds with
  | [] => (c, [])
  | md :: r => let '(c1, o, e) := clip_call c md in
               let (c2, os) := clip_calls c1 r in (c2, (o, e) :: os)
  end.

Theorem clip_method_ignored : forall f m n meth1 meth2 mds,
  let c1 := {| cl_freq := f; cl_mode := m; cl_method := meth1; cl_bits := n |} in
  let c2 := {| cl_freq := f; cl_mode := m; cl_method := meth2; cl_bits := n |} in
  snd (clip_calls c1 mds) = snd (clip_calls c2 mds) /\
  cl_freq (fst (clip_calls c1 mds)) = f + zlen (filter (fun o => match snd o with None => true | _ => false end) (snd (clip_calls c1 mds))).
Proof.
  intros f m n meth1 meth2 mds. cbn zeta. split.
  - destruct mds; reflexivity.
  - revert f meth1. induction mds as [|md mds IH]; intros f meth1.
    + cbn [clip_calls fst snd filter cl_freq]. change (zlen []) with 0. lia.
    + cbn [clip_calls]. unfold clip_call. cbn zeta. cbn [cl_freq cl_mode cl_bits].
      set (meth := if f >? 1 then Clip else Norm).
      destruct (clip_attr m meth n (m_weight md)) as [w [e|]].
      * specialize (IH f meth). destruct (clip_calls _ mds) as [c2 os]. cbn [fst snd filter] in IH |- *. exact IH.
      * destruct (clip_attr m meth n (m_bias md)) as [b [e|]].
        -- specialize (IH f meth). destruct (clip_calls _ mds) as [c2 os]. cbn [fst snd filter] in IH |- *. exact IH.
        -- specialize (IH (f + 1) meth). destruct (clip_calls _ mds) as [c2 os]. cbn [fst snd filter] in IH |- *. rewrite IH.
           unfold zlen. cbn [List.length]. lia.
Qed.

(** A module whose bias is None: every call raises, normalises the weight again and leaves the frequency. *)
Theorem clip_bias_none : forall f m n meth w k, f <= 1 -> (m = "unipolar" \/ m = "bipolar") -> w <> [] ->
  let c := {| cl_freq := f; cl_mode := m; cl_method := meth; cl_bits := n |} in
  let md := {| m_weight := Tensor (Some w); m_bias := IsNone |} in
  Forall (fun o => snd o = Some AttributeError) (snd (clip_calls c (repeat md k))) /\
  cl_freq (fst (clip_calls c (repeat md k))) = f /\
  Forall (fun o => exists r, m_weight (fst o) = Tensor r /\
     (m = "unipolar" -> clipping Unipolar Norm n w = Ok r) /\ (m = "bipolar" -> clipping Bipolar Norm n w = Ok r)) (snd (clip_calls c (repeat md k))).
Proof.
  intros f m n meth w k Hf Hm Hw. cbn zeta. revert meth. induction k as [|k IH]; intros meth.
  - cbn [repeat clip_calls fst snd cl_freq]. repeat split; constructor.
  - cbn [repeat clip_calls]. set (md := {| m_weight := Tensor (Some w); m_bias := IsNone |}) in *.
    assert (E : exists r, clip_call {| cl_freq := f; cl_mode := m; cl_method := meth; cl_bits := n |} md =
        ({| cl_freq := f; cl_mode := m; cl_method := Norm; cl_bits := n |}, {| m_weight := Tensor r; m_bias := IsNone |}, Some AttributeError) /\
        ((m = "unipolar" -> clipping Unipolar Norm n w = Ok r) /\ (m = "bipolar" -> clipping Bipolar Norm n w = Ok r))).
    { assert (G : forall p, (p = Unipolar /\ m = "unipolar") \/ (p = Bipolar /\ m = "bipolar") -> exists r, clipping p Norm n w = Ok r /\ attr_after m Norm n (Tensor (Some w)) (Tensor r) None).
      { intros p Hp. destruct (clipping p Norm n w) as [r|e] eqn:C; [|destruct (clipping_err _ _ _ _ _ C) as (_ & E & _); contradiction].
        exists r. split; [reflexivity|]. destruct Hp as [[-> Hp]|[-> Hp]]; [apply after_unipolar|apply after_bipolar]; assumption. }
      assert (K : forall r, attr_after m Norm n (Tensor (Some w)) (Tensor r) None ->
        clip_call {| cl_freq := f; cl_mode := m; cl_method := meth; cl_bits := n |} md =
        ({| cl_freq := f; cl_mode := m; cl_method := Norm; cl_bits := n |}, {| m_weight := Tensor r; m_bias := IsNone |}, Some AttributeError)).
      { intros r A. apply clip_call_spec. exists Norm, None, (Some AttributeError). cbn [cl_freq cl_mode cl_bits]. rewrite Z.add_0_r.
        (split; [|split; [|split; [|split; [|split]]]]); try tauto; try lia; try congruence.
        intros _. split; [constructor|reflexivity]. }
      destruct Hm as [Hm|Hm].
      - destruct (G Unipolar) as (r & C & A); [tauto|]. exists r. split; [apply K, A|]. split; [intros _; exact C|]. intros ->. discriminate.
      - destruct (G Bipolar) as (r & C & A); [tauto|]. exists r. split; [apply K, A|]. split; [|intros _; exact C]. intros ->. discriminate. }
    destruct E as (r & E & Er). rewrite E. specialize (IH Norm).
    destruct (clip_calls {| cl_freq := f; cl_mode := m; cl_method := Norm; cl_bits := n |} (repeat md k)) as [c2 os]. cbn [fst snd] in IH |- *.
    destruct IH as (I1 & I2 & I3). split; [constructor; [reflexivity|exact I1]|]. split; [exact I2|].
    constructor; [|exact I3]. exists r. split; [reflexivity|exact Er].
Qed.

(** ** Shapes *)
Lemma Qfloor_div n s : 0 < s -> Qfloor (inject_Z n / inject_Z s) = n / s.
Proof.
  intros Hs. pose proof (inject_pos s Hs) as P. apply Qfloor_spec.
  - apply Qle_shift_div_l; [exact P|]. rewrite <- inject_Z_mult. apply inject_Z_le_iff. pose proof (Z.mul_div_le n s Hs). lia.
  - apply Qlt_shift_div_r; [exact P|]. rewrite <- inject_Z_mult. apply inject_Z_lt_iff. pose proof (Z.mul_succ_div_gt n s Hs). lia.
Qed.

Lemma Qfloor_compat q1 q2 : (q1 == q2)%Q -> Qfloor q1 = Qfloor q2.
Proof. intros E. apply Qfloor_comp, E. Qed.

Lemma conv_axis_eq h k s p0 p1 d : 0 < s -> conv_axis h k s p0 p1 d = (h + p0 + p1 - d * (k - 1) - 1) / s + 1.
Proof.
  intros Hs. unfold conv_axis. pose proof (inject_pos s Hs) as P.
  replace ((h + p0 + p1 - d * (k - 1) - 1) / s + 1) with ((h + (p0 + p1) - d * (k - 1) - 1 + 1 * s) / s)
    by (rewrite Z.div_add by lia; do 2 f_equal; ring).
  rewrite <- Qfloor_div by exact Hs. apply Qfloor_compat. rewrite !inject_Z_plus, (inject_Z_mult 1 s).
  change (inject_Z 1) with 1%Q. field. lra.
Qed.

Lemma conv_axis_iff h k s p0 p1 d i : 0 < s -> (i < conv_axis h k s p0 p1 d <-> i * s + d * (k - 1) < h + p0 + p1).
Proof.
  intros Hs. rewrite conv_axis_eq by exact Hs. set (n := h + p0 + p1 - d * (k - 1) - 1).
  pose proof (Z.mul_div_le n s Hs). pose proof (Z.mul_succ_div_gt n s Hs).
  split; intros H1.
  - assert (i <= n / s) by lia. assert (i * s <= s * (n / s)) by nia. unfold n in *. lia.
  - assert (i * s <= n) by (unfold n; lia). assert (i < Z.succ (n / s)) by nia. lia.
Qed.

Lemma zrange_S n : zrange (S n) = zrange n ++ [Z.of_nat n].
Proof. unfold zrange. rewrite seq_S, map_app. reflexivity. Qed.

Lemma count_multiples s m : 0 < s -> 0 <= m ->
  countb (fun x => x mod s =? 0) (zrange (Z.to_nat m)) = if m =? 0 then 0 else (m - 1) / s + 1.
Proof.
  intros Hs Hm. enough (G : forall n, countb (fun x => x mod s =? 0) (zrange n) = if Z.of_nat n =? 0 then 0 else (Z.of_nat n - 1) / s + 1).
  { rewrite G, Z2Nat.id by lia. reflexivity. }
  clear m Hm. intros n. induction n as [|n IH]; [reflexivity|]. rewrite zrange_S, countb_app, IH. cbn [countb].
  destruct (Z.eqb_spec (Z.of_nat (S n)) 0); [lia|]. replace (Z.of_nat (S n) - 1) with (Z.of_nat n) by lia.
  destruct (Z.eqb_spec (Z.of_nat n) 0) as [E|E].
  - rewrite E. rewrite Z.mod_0_l, Z.div_0_l by lia. reflexivity.
  - pose proof (Z.div_mod (Z.of_nat n) s ltac:(lia)) as D. pose proof (Z.mod_pos_bound (Z.of_nat n) s Hs) as B.
    destruct (Z.eqb_spec (Z.of_nat n mod s) 0) as [Em|Em].
    + assert (Ed : (Z.of_nat n - 1) / s = Z.of_nat n / s - 1).
      { symmetry. apply (Z.div_unique _ _ _ (s - 1)); [left; lia|]. rewrite D at 1. rewrite Em. ring. }
      rewrite Ed. lia.
    + assert (Ed : (Z.of_nat n - 1) / s = Z.of_nat n / s).
      { symmetry. apply (Z.div_unique _ _ _ (Z.of_nat n mod s - 1)); [left; lia|]. rewrite D at 1. ring. }
      rewrite Ed. lia.
Qed.

Lemma count_prefix (f : Z -> bool) (b : Z) : forall n, 
  countb (fun x => f x && (x <? b)) (zrange n) = countb f (zrange (Nat.min n (Z.to_nat b))).
Proof.
  induction n as [|n IH]; [reflexivity|]. rewrite zrange_S, countb_app, IH. cbn [countb].
  destruct (Z.ltb_spec (Z.of_nat n) b).
  - rewrite andb_true_r. replace (Nat.min (S n) (Z.to_nat b)) with (S (Nat.min n (Z.to_nat b))) by lia.
    rewrite zrange_S, countb_app. cbn [countb]. replace (Nat.min n (Z.to_nat b)) with n by lia. reflexivity.
  - rewrite andb_false_r. replace (Nat.min (S n) (Z.to_nat b)) with (Nat.min n (Z.to_nat b)) by lia. lia.
Qed.

Lemma positions_eq n k s d : 0 < s -> 0 <= d * (k - 1) -> positions n k s d = Z.max 0 ((n - d * (k - 1) - 1) / s + 1).
Proof.
  intros Hs Hd. unfold positions. set (c := d * (k - 1)) in *.
  assert (E : countb (fits n k s d) (zrange (Z.to_nat n)) = countb (fun x => (x mod s =? 0) && (x <? n - c)) (zrange (Z.to_nat n))).
  { apply countb_ext. intros x _. unfold fits. fold c. f_equal. destruct (Z.ltb_spec (x + c) n), (Z.ltb_spec x (n - c)); try reflexivity; lia. }
  rewrite E, count_prefix. replace (Nat.min (Z.to_nat n) (Z.to_nat (n - c))) with (Z.to_nat (Z.max 0 (n - c))) by lia.
  rewrite count_multiples by lia. destruct (Z.eqb_spec (Z.max 0 (n - c)) 0) as [E0|E0].
  - assert ((n - c - 1) / s < 0) by (apply Z.div_lt_upper_bound; lia). lia.
  - replace (Z.max 0 (n - c)) with (n - c) by lia.
    assert (0 <= (n - c - 1) / s) by (apply Z.div_pos; lia). lia.
Qed.

Theorem conv_shape_spec : forall h w k0 k1 s0 s1 p00 p01 p10 p11 d0 d1, 0 < s0 -> 0 < s1 -> 0 <= d0 * (k0 - 1) -> 0 <= d1 * (k1 - 1) ->
  let out := conv2d_output_shape (Pair h w) (Pair k0 k1) (Pair s0 s1) (PPair (Pair p00 p01) (Pair p10 p11)) (Pair d0 d1) in
  positions (p00 + h + p01) k0 s0 d0 = Z.max 0 (fst out) /\
  positions (p10 + w + p11) k1 s1 d1 = Z.max 0 (snd out) /\
  (forall i, 0 <= i -> (i < fst out <-> i * s0 + d0 * (k0 - 1) < p00 + h + p01)) /\
  (forall i, 0 <= i -> (i < snd out <-> i * s1 + d1 * (k1 - 1) < p10 + w + p11)).
Proof.
  intros h w k0 k1 s0 s1 p00 p01 p10 p11 d0 d1 H0 H1 H2 H3. unfold conv2d_output_shape. cbn [num2tuple pad_tuple]. cbn zeta. cbn [fst snd].
  replace (p00 + h + p01) with (h + p00 + p01) by lia. replace (p10 + w + p11) with (w + p10 + p11) by lia.
  split; [|split; [|split]].
  - rewrite positions_eq, conv_axis_eq by assumption. reflexivity.
  - rewrite positions_eq, conv_axis_eq by assumption. reflexivity.
  - intros i _. apply conv_axis_iff, H0.
  - intros i _. apply conv_axis_iff, H1.
Qed.

(** An argument given as one number means both axes, a padding number both sides. *)
Definition both (n : num) : num := match n with Num z => Pair z z | Pair a b => Pair a b end.
Definition both_pad (p : padarg) : padarg := match p with PNum z => PPair (Pair z z) (Pair z z) | PPair a b => PPair (both a) (both b) end.
Theorem conv_shape_numbers : forall h_w k s pad d out_pad,
  conv2d_output_shape h_w k s pad d = conv2d_output_shape (both h_w) (both k) (both s) (both_pad pad) (both d) /\
  convtransp2d_output_shape h_w k s pad d out_pad = convtransp2d_output_shape (both h_w) (both k) (both s) (both_pad pad) (both d) (both out_pad).
Proof. intros h_w k s pad d out_pad. destruct h_w, k, s, d, out_pad, pad as [pz|[pz|pa pb] [py|pc pd]]; split; reflexivity. Qed.


(** ** Padding *)
Lemma halves_floor p : Qfloor (inject_Z p / 2) = p / 2.
Proof. change 2%Q with (inject_Z 2). apply Qfloor_div. lia. Qed.
Lemma Qceiling_half p : Qceiling (inject_Z p / 2) = - (- p / 2).
Proof.
  unfold Qceiling. f_equal. rewrite <- halves_floor. apply Qfloor_compat. rewrite inject_Z_opp. field.
Qed.
Lemma halves_Z p : halves (inject_Z p) = Pair (p / 2) (- (- p / 2)).
Proof. unfold halves. rewrite halves_floor, Qceiling_half. reflexivity. Qed.
Lemma quarters_Z p : halves (inject_Z p / 2) = Pair (p / 4) (- (- p / 4)).
Proof.
  unfold halves. f_equal.
  - rewrite <- (Qfloor_div p 4) by lia. apply Qfloor_compat. change (inject_Z 4) with 4%Q. field.
  - unfold Qceiling. f_equal. rewrite <- (Qfloor_div (- p) 4) by lia. apply Qfloor_compat. rewrite inject_Z_opp. change (inject_Z 4) with 4%Q. field.
Qed.

Lemma half_sum p : p / 2 + - (- p / 2) = p /\ 0 <= - (- p / 2) - p / 2 <= 1.
Proof.
  pose proof (Z.div_mod p 2 ltac:(lia)). pose proof (Z.mod_pos_bound p 2 ltac:(lia)).
  pose proof (Z.div_mod (- p) 2 ltac:(lia)). pose proof (Z.mod_pos_bound (- p) 2 ltac:(lia)). lia.
Qed.

Theorem conv_padding_roundtrip : forall h_w_in h_w_out k s d,
  0 < fst (num2tuple s) -> 0 < snd (num2tuple s) ->
  let p := conv2d_get_padding h_w_in h_w_out k s d in
  conv2d_output_shape h_w_in k s p d = num2tuple h_w_out /\
  0 <= snd (fst (pad_tuple p)) - fst (fst (pad_tuple p)) <= 1 /\
  0 <= snd (snd (pad_tuple p)) - fst (snd (pad_tuple p)) <= 1.
Proof.
  intros h_w_in h_w_out k s d. unfold conv2d_get_padding, conv2d_output_shape.
  destruct (num2tuple h_w_in) as [hi wi], (num2tuple h_w_out) as [ho wo], (num2tuple k) as [k0 k1], (num2tuple s) as [s0 s1],
    (num2tuple d) as [d0 d1]. cbn [fst snd]. intros H0 H1. rewrite !halves_Z. cbn [pad_tuple num2tuple fst snd].
  set (P0 := (ho - 1) * s0 - hi + d0 * (k0 - 1) + 1). set (P1 := (wo - 1) * s1 - wi + d1 * (k1 - 1) + 1).
  destruct (half_sum P0) as [E0 B0]. destruct (half_sum P1) as [E1 B1].
  split; [|split; assumption].
  rewrite !conv_axis_eq by assumption.
  apply (f_equal2 pair).
  - replace (hi + P0 / 2 + - (- P0 / 2) - d0 * (k0 - 1) - 1) with ((ho - 1) * s0) by (unfold P0 in *; lia).
    rewrite Z.div_mul by lia. lia.
  - replace (wi + P1 / 2 + - (- P1 / 2) - d1 * (k1 - 1) - 1) with ((wo - 1) * s1) by (unfold P1 in *; lia).
    rewrite Z.div_mul by lia. lia.
Qed.

Lemma quarter_sum p : p / 4 + - (- p / 4) = p <-> -1 <= p <= 1.
Proof.
  pose proof (Z.div_mod p 4 ltac:(lia)). pose proof (Z.mod_pos_bound p 4 ltac:(lia)).
  pose proof (Z.div_mod (- p) 4 ltac:(lia)). pose proof (Z.mod_pos_bound (- p) 4 ltac:(lia)). lia.
Qed.

Theorem convtransp_padding : forall h_w_in h_w_out k s d out_pad,
  let need i o kk ss dd oo := (i - 1) * ss + dd * (kk - 1) + oo + 1 - o in
  let Th := need (fst (num2tuple h_w_in)) (fst (num2tuple h_w_out)) (fst (num2tuple k)) (fst (num2tuple s)) (fst (num2tuple d)) (fst (num2tuple out_pad)) in
  let Tw := need (snd (num2tuple h_w_in)) (snd (num2tuple h_w_out)) (snd (num2tuple k)) (snd (num2tuple s)) (snd (num2tuple d)) (snd (num2tuple out_pad)) in
  convtransp2d_output_shape h_w_in k s (convtransp2d_get_padding h_w_in h_w_out k s d out_pad) d out_pad = num2tuple h_w_out
  <-> -1 <= Th <= 1 /\ -1 <= Tw <= 1.
Proof.
  intros h_w_in h_w_out k s d out_pad. cbn zeta. unfold convtransp2d_get_padding, convtransp2d_output_shape.
  destruct (num2tuple h_w_in) as [hi wi], (num2tuple h_w_out) as [ho wo], (num2tuple k) as [k0 k1], (num2tuple s) as [s0 s1],
    (num2tuple d) as [d0 d1], (num2tuple out_pad) as [o0 o1]. cbn [fst snd]. rewrite !quarters_Z. cbn [pad_tuple num2tuple].
  set (A := - (ho - 1 - o0 - d0 * (k0 - 1) - (hi - 1) * s0)). set (B := - (wo - 1 - o1 - d1 * (k1 - 1) - (wi - 1) * s1)).
  assert (EA : (hi - 1) * s0 + d0 * (k0 - 1) + o0 + 1 - ho = A) by (unfold A; ring).
  assert (EB : (wi - 1) * s1 + d1 * (k1 - 1) + o1 + 1 - wo = B) by (unfold B; ring).
  rewrite EA, EB, <- (quarter_sum A), <- (quarter_sum B). clearbody A B. split.
  - intros E. pose proof (f_equal fst E) as E1. pose proof (f_equal snd E) as E2. cbn [fst snd] in E1, E2. lia.
  - intros [E1 E2]. apply (f_equal2 pair); lia.
Qed.

(** ** Truncated normal *)
Lemma tn_cond_neg mean std x : tn_cond mean std x = negb (in_two_sigma mean std x).
Proof. unfold tn_cond, in_two_sigma, qlt, qgt. rewrite negb_andb. reflexivity. Qed.

Lemma map2_nthQ (f : Q -> Q -> Q) : forall l1 l2 i, (i < length l1)%nat -> length l1 = length l2 ->
  nth i (map2 f l1 l2) 0%Q = f (nth i l1 0%Q) (nth i l2 0%Q).
Proof.
  induction l1 as [|x l1 IH]; intros [|y l2] i Hi HL; cbn [length] in *; try lia.
  cbn [map2]. destruct i; [reflexivity|]. cbn [nth]. apply IH; lia.
Qed.

Lemma map2_len_eq {A B C} (f : A -> B -> C) : forall l1 l2, length l1 = length l2 -> length (map2 f l1 l2) = length l1.
Proof.
  induction l1 as [|x l1 IH]; intros [|y l2] H; cbn [map2 length] in *; try lia. f_equal. apply IH. lia.
Qed.

Lemma existsb_false_nth {A} (f : A -> bool) l d : existsb f l = false -> forall i, (i < length l)%nat -> f (nth i l d) = false.
Proof.
  intros H i Hi. destruct (f (nth i l d)) eqn:E; [|reflexivity]. rewrite <- H. symmetry. apply existsb_exists.
  exists (nth i l d). split; [apply nth_In, Hi|exact E].
Qed.
Lemma existsb_true_nth {A} (f : A -> bool) l d : existsb f l = true -> exists i, (i < length l)%nat /\ f (nth i l d) = true.
Proof.
  intros H. apply existsb_exists in H. destruct H as (x & Hx & E). apply (In_nth _ _ d) in Hx. destruct Hx as (i & Hi & <-). eauto.
Qed.

Lemma tn_loop_spec mean std n : forall draws t u, length t = n -> Forall (fun d => length d = n) draws ->
  let ok := in_two_sigma mean std in
  match tn_loop mean std t draws u with
  | Some (t', u') => length t' = n /\ (u <= u' <= u + length draws)%nat /\
      (forall i, (i < n)%nat -> find ok (column i (t :: firstn (u' - u) draws)) = Some (nth i t' 0%Q)) /\
      (u' = u \/ exists i, (i < n)%nat /\ find ok (column i (t :: firstn (u' - u - 1) draws)) = None)
  | None => exists i, (i < n)%nat /\ find ok (column i (t :: draws)) = None
  end.
Proof.
  induction draws as [|d draws IH]; intros t u Ht Hd; cbn zeta; cbn [tn_loop].
  - destruct (existsb (tn_cond mean std) t) eqn:E.
    + apply (existsb_true_nth _ _ 0%Q) in E. destruct E as (i & Hi & E). exists i. split; [lia|]. cbn [column map find].
      rewrite tn_cond_neg in E. apply negb_true_iff in E. rewrite E. reflexivity.
    + split; [exact Ht|]. split; [cbn [length]; lia|]. split; [|left; reflexivity]. intros i Hi.
      pose proof (existsb_false_nth _ _ 0%Q E i ltac:(lia)) as F. rewrite tn_cond_neg in F. apply negb_false_iff in F.
      cbn [column map find]. rewrite F. reflexivity.
  - inversion Hd as [|? ? Hd0 Hdr]; subst.
    destruct (existsb (tn_cond mean std) t) eqn:E.
    + set (t1 := map2 _ t d).
      assert (HL : length t1 = length t).
      { unfold t1. apply map2_len_eq. lia. }
      assert (Fs : forall i l, (i < length t)%nat -> find (in_two_sigma mean std) (nth i t1 0%Q :: l) =
                    find (in_two_sigma mean std) (nth i t 0%Q :: nth i d 0%Q :: l)).
      { intros i l Hi. unfold t1. rewrite map2_nthQ by lia. rewrite tn_cond_neg. cbn [find].
        destruct (in_two_sigma mean std (nth i t 0%Q)) eqn:Ei; cbn [negb]; rewrite ?Ei; reflexivity. }
      specialize (IH t1 (S u) HL Hdr). cbn zeta in IH. destruct (tn_loop mean std t1 draws (S u)) as [[t' u']|].
      * destruct IH as (I1 & I2 & I3 & I4). split; [exact I1|]. cbn [length]. split; [lia|].
        replace (u' - u)%nat with (S (u' - S u)) by lia. split.
        -- intros i Hi. rewrite <- (I3 i Hi). cbn [firstn column map]. symmetry. apply Fs, Hi.
        -- right. destruct I4 as [I4|(i & Hi & F)].
           ++ replace (S (u' - S u) - 1)%nat with 0%nat by lia. apply (existsb_true_nth _ _ 0%Q) in E. destruct E as (i & Hi & E).
              exists i. split; [exact Hi|]. cbn [firstn column map find].
              rewrite tn_cond_neg in E. apply negb_true_iff in E. rewrite E. reflexivity.
           ++ destruct (Nat.eq_dec u' (S u)) as [Eu|Nu].
              ** replace (S (u' - S u) - 1)%nat with 0%nat by lia. apply (existsb_true_nth _ _ 0%Q) in E. destruct E as (j & Hj & E).
                 exists j. split; [exact Hj|]. cbn [firstn column map find].
                 rewrite tn_cond_neg in E. apply negb_true_iff in E. rewrite E. reflexivity.
              ** exists i. split; [exact Hi|]. replace (S (u' - S u) - 1)%nat with (S (u' - S u - 1)) by lia.
                 rewrite <- F. cbn [firstn column map]. symmetry. apply Fs, Hi.
      * destruct IH as (i & Hi & F). exists i. split; [exact Hi|]. rewrite <- F. cbn [column map]. symmetry. apply Fs, Hi.
    + split; [reflexivity|]. split; [lia|]. split; [|left; reflexivity]. intros i Hi. rewrite Nat.sub_diag. cbn [firstn].
      pose proof (existsb_false_nth _ _ 0%Q E i Hi) as F. rewrite tn_cond_neg in F. apply negb_false_iff in F.
      cbn [column map find]. rewrite F. reflexivity.
Qed.

Theorem truncated_normal_spec : forall mean std n draws, draws <> [] -> Forall (fun d => length d = n) draws ->
  let ok := in_two_sigma mean std in
  match truncated_normal mean std draws with
  | Some (passed, t, used) =>
      hd_error draws = Some passed /\ length t = n /\ (1 <= used <= length draws)%nat /\
      (forall i, (i < n)%nat -> ok (nth i t 0%Q) = true /\ find ok (column i (firstn used draws)) = Some (nth i t 0%Q)) /\
      (used = 1%nat \/ exists i, (i < n)%nat /\ find ok (column i (firstn (used - 1) draws)) = None)
  | None => exists i, (i < n)%nat /\ find ok (column i draws) = None
  end.
Proof.
  intros mean std n draws Hne Hd. cbn zeta. destruct draws as [|d r]; [contradiction|]. inversion Hd as [|? ? H1 H2]; subst.
  unfold truncated_normal. pose proof (tn_loop_spec mean std (length d) r d 1 eq_refl H2) as L. cbn zeta in L.
  destruct (tn_loop mean std d r 1) as [[t u]|]; [|exact L]. destruct L as (L1 & L2 & L3 & L4).
  split; [reflexivity|]. split; [exact L1|]. cbn [length]. split; [lia|].
  destruct u as [|u]; [lia|]. replace (S u - 1)%nat with u in * by lia. cbn [firstn]. split.
  - intros i Hi. specialize (L3 i Hi). split; [|exact L3]. apply find_some in L3. apply L3.
  - destruct L4 as [L4|(i & Hi & F)]; [left; exact L4|]. destruct u as [|u]; [left; reflexivity|]. right. exists i. split; [exact Hi|].
    cbn [firstn]. replace (S u - 1)%nat with u in F by lia. exact F.
Qed.

(** ** Round *)
Lemma qpow2_pos n : (0 < qpow2 n)%Q.
Proof. unfold qpow2. apply Qpower_0_lt. reflexivity. Qed.
Lemma qpow2_Z n : 0 <= n -> (qpow2 n == inject_Z (2 ^ n))%Q.
Proof. intros H. unfold qpow2. rewrite Zpower_Qpower by exact H. reflexivity. Qed.
Lemma qpow2_add a b : (qpow2 (a + b) == qpow2 a * qpow2 b)%Q.
Proof. unfold qpow2. apply Qpower_plus. discriminate. Qed.

Lemma round_fxp_eq i f x : 0 <= i + f ->
  (round_fxp i f x == inject_Z (zclamp (- (2 ^ (i + f) - 1)) (2 ^ (i + f) - 1) (qround (x * qpow2 f))) / qpow2 f)%Q.
Proof.
  intros H. set (M := 2 ^ (i + f) - 1). unfold round_fxp, qshr, qshl. pose proof (qpow2_pos f) as P.
  assert (HM : 0 <= M) by (unfold M; pose proof (Z.pow_pos_nonneg 2 (i + f)); lia).
  assert (E : (qpow2 (i + f) - 1 == inject_Z M)%Q).
  { rewrite qpow2_Z by exact H. unfold M. replace (2 ^ (i + f) - 1) with (2 ^ (i + f) + -1) by lia. rewrite inject_Z_plus. reflexivity. }
  assert (E' : (1 - qpow2 (i + f) == inject_Z (- M))%Q) by (rewrite inject_Z_opp, <- E; ring).
  set (R := qround (x * qpow2 f)).
  assert (C : (qclamp (1 - qpow2 (i + f)) (qpow2 (i + f) - 1) (inject_Z R) == inject_Z (zclamp (- M) M R))%Q).
  { unfold zclamp, qclamp, qmin, qmax.
    destruct (Z.max_spec R (- M)) as [[L1 E1]|[L1 E1]]; rewrite E1;
      [apply inject_Z_lt_iff in L1|apply inject_Z_le_iff in L1];
      match goal with |- context [Z.min ?a M] => destruct (Z.min_spec a M) as [[L2 E2]|[L2 E2]]; rewrite E2 end;
      try (apply inject_Z_lt_iff in L2); try (apply inject_Z_le_iff in L2);
      qcases; lra. }
  rewrite C. reflexivity.
Qed.

Theorem round_spec : forall i f x, 0 <= i + f ->
  let M := 2 ^ (i + f) - 1 in
  exists k, (round_fxp i f x == inject_Z k / Qpower 2 f)%Q /\ - M <= k <= M /\
    ((Qabs (x * Qpower 2 f) <= inject_Z M)%Q -> rounds_to (x * Qpower 2 f) k) /\
    ((inject_Z M <= x * Qpower 2 f)%Q -> k = M) /\
    ((x * Qpower 2 f <= inject_Z (- M))%Q -> k = - M).
Proof.
  intros i f x H M. pose proof (round_fxp_eq i f x H) as E. fold M in E.
  change (Qpower 2 f) with (qpow2 f). set (R := qround (x * qpow2 f)) in *.
  assert (HM : 0 <= M) by (unfold M; pose proof (Z.pow_pos_nonneg 2 (i + f)); lia).
  exists (zclamp (- M) M R). split; [exact E|]. split; [unfold zclamp; lia|]. split; [|split].
  - intros Hx. apply Qabs_Qle_condition in Hx. destruct Hx as [Ha Hb]. rewrite <- inject_Z_opp in Ha.
    pose proof (qround_between _ _ _ Ha Hb) as B. fold R in B. replace (zclamp (- M) M R) with R by (unfold zclamp; lia).
    apply qround_rounds.
  - intros Hx. apply qround_mono in Hx. rewrite qround_Z in Hx. fold R in Hx. unfold zclamp. lia.
  - intros Hx. apply qround_mono in Hx. rewrite qround_Z in Hx. fold R in Hx. unfold zclamp. lia.
Qed.

Theorem round_module : forall i f x g,
  round_forward i f None = None /\
  (0 <= i + f -> exists y, round_forward i f (Some x) = Some y /\
     Forall2 (fun a b => exists k, (b == inject_Z k / Qpower 2 f)%Q /\ - (2 ^ (i + f) - 1) <= k <= 2 ^ (i + f) - 1 /\
       ((Qabs (a * Qpower 2 f) <= inject_Z (2 ^ (i + f) - 1))%Q -> rounds_to (a * Qpower 2 f) k)) x y) /\
  round_backward g = g.
Proof.
  intros i f x g. split; [reflexivity|]. split; [|reflexivity]. intros H. eexists. split; [reflexivity|].
  apply Forall2_map_r. intros a _. destruct (round_spec i f a H) as (k & K1 & K2 & K3 & _). exists k. tauto.
Qed.
Theorem round_laws : forall i f, 0 <= i + f ->
  (forall x, (round_fxp i f (round_fxp i f x) == round_fxp i f x)%Q) /\
  (forall x y, (x <= y)%Q -> (round_fxp i f x <= round_fxp i f y)%Q) /\
  (forall x, (round_fxp i f (- x) == - round_fxp i f x)%Q).
Proof.
  intros i f H. pose proof (qpow2_pos f) as P. set (M := 2 ^ (i + f) - 1).
  assert (HM : 0 <= M) by (unfold M; pose proof (Z.pow_pos_nonneg 2 (i + f)); lia).
  split; [|split].
  - intros x. pose proof (round_fxp_eq i f x H) as E0. fold M in E0. set (y := round_fxp i f x) in *. clearbody y.
    pose proof (round_fxp_eq i f y H) as E1. fold M in E1.
    set (k := zclamp (- M) M (qround (x * qpow2 f))) in *.
    assert (E : (y * qpow2 f == inject_Z k)%Q) by (rewrite E0; field; lra).
    rewrite E1, (qround_comp _ _ E), qround_Z. replace (zclamp (- M) M k) with k by (unfold k, zclamp; lia). symmetry. exact E0.
  - intros x y L. rewrite !(round_fxp_eq i f _ H). fold M. apply Qmult_le_compat_r; [|apply Qlt_le_weak, Qinv_lt_0_compat, P].
    apply inject_Z_le_iff. assert (x * qpow2 f <= y * qpow2 f)%Q as L2 by nra. apply qround_mono in L2. unfold zclamp. lia.
  - intros x. rewrite !(round_fxp_eq i f _ H). fold M.
    assert (E : (- x * qpow2 f == - (x * qpow2 f))%Q) by ring. rewrite (qround_comp _ _ E), qround_opp.
    set (R := qround (x * qpow2 f)). replace (zclamp (- M) M (- R)) with (- zclamp (- M) M R) by (unfold zclamp; lia).
    rewrite inject_Z_opp. field. lra.
Qed.

(** ** Logarithms *)
Lemma qlog2_floor_spec s : (0 < s)%Q -> (qpow2 (qlog2_floor s) <= s /\ s < qpow2 (qlog2_floor s + 1))%Q.
Proof.
  intros Hs. destruct s as [n d]. assert (Hn : 0 < n) by (unfold Qlt in Hs; cbn in Hs; lia).
  unfold qlog2_floor. cbn [Qnum Qden]. pose proof (Z.log2_spec n Hn) as [N1 N2]. pose proof (Z.log2_spec (Zpos d) ltac:(lia)) as [D1 D2].
  set (a := Z.log2 n) in *. set (b := Z.log2 (Zpos d)) in *.
  pose proof (Z.log2_nonneg n) as A0. pose proof (Z.log2_nonneg (Zpos d)) as B0. fold a in A0. fold b in B0.
  assert (Es : (n # d == inject_Z n / inject_Z (Zpos d))%Q) by apply Qmake_Qdiv.
  pose proof (inject_pos (Zpos d) ltac:(lia)) as PD.
  assert (X1 : (qpow2 (a - b - 1) < n # d)%Q).
  { rewrite Es. apply Qlt_shift_div_l; [exact PD|]. 
    assert (E : (qpow2 (a - b - 1) * qpow2 (b + 1) == qpow2 a)%Q) by (rewrite <- qpow2_add; replace (a - b - 1 + (b + 1)) with a by lia; reflexivity).
    assert (L : (inject_Z (Zpos d) < qpow2 (b + 1))%Q) by (rewrite qpow2_Z by lia; apply inject_Z_lt_iff; exact D2).
    assert (G : (qpow2 a <= inject_Z n)%Q) by (rewrite qpow2_Z by lia; apply inject_Z_le_iff; exact N1).
    pose proof (qpow2_pos (a - b - 1)). nra. }
  assert (X2 : (n # d < qpow2 (a - b + 1))%Q).
  { rewrite Es. apply Qlt_shift_div_r; [exact PD|].
    assert (E : (qpow2 (a - b + 1) * qpow2 b == qpow2 (a + 1))%Q) by (rewrite <- qpow2_add; replace (a - b + 1 + b) with (a + 1) by lia; reflexivity).
    assert (L : (qpow2 b <= inject_Z (Zpos d))%Q) by (rewrite qpow2_Z by lia; apply inject_Z_le_iff; exact D1).
    assert (G : (inject_Z n < qpow2 (a + 1))%Q) by (rewrite qpow2_Z by lia; apply inject_Z_lt_iff; exact N2).
    pose proof (qpow2_pos (a - b + 1)). nra. }
  destruct (Qle_bool_spec (qpow2 (a - b)) (n # d)) as [L|L].
  - split; [exact L|exact X2].
  - split; [apply Qlt_le_weak, X1|]. replace (a - b - 1 + 1) with (a - b) by lia. exact L.
Qed.

Lemma no_sqrt2 : forall n p q, (Z.to_nat p <= n)%nat -> 0 <= p -> 0 < q -> p * p = 2 * (q * q) -> False.
Proof.
  induction n as [|n IH]; intros p q Hn Hp Hq E; [nia|].
  destruct (Z.Even_or_Odd p) as [[p' ->]|[p' ->]]; [|nia].
  assert (E2 : q * q = 2 * (p' * p')) by nia. assert (0 < p') by nia. assert (q < 2 * p') by nia.
  apply (IH q p'); [lia|lia|lia|exact E2].
Qed.

Lemma no_sqrt2_Q t : ~ (t * t == 2)%Q.
Proof.
  intros E. destruct t as [n d]. unfold Qeq, Qmult in E. cbn [Qnum Qden] in E.
  apply (no_sqrt2 (Z.to_nat (Z.abs n)) (Z.abs n) (Zpos d)); [lia|lia|lia|]. nia.
Qed.

Lemma log2_rounded_spec r s : (0 < s)%Q ->
  let e := log2_rounded r s in
  match r with
  | RFloor => from_and_below e s
  | RCeil => above_and_upto e s
  | RRound => around e s
  end.
Proof.
  intros Hs. cbn zeta. destruct (qlog2_floor_spec s Hs) as [L U]. unfold log2_rounded. set (f := qlog2_floor s) in *. clearbody f.
  assert (D : forall k, (qpow2 (k + 1) == 2 * qpow2 k)%Q) by (intros k; rewrite qpow2_add; change (qpow2 1) with 2%Q; ring).
  pose proof (qpow2_pos f) as P.
  assert (S2 : (qpow2 (2 * f) == qpow2 f * qpow2 f)%Q) by (rewrite <- qpow2_add; replace (2 * f) with (f + f) by lia; reflexivity).
  destruct r.
  - (* round *)
    unfold around. change (Qpower 2) with qpow2. pose proof (D (2 * f)) as D1. pose proof (D (2 * f + 1)) as D2. pose proof (D f) as D0.
    destruct (Qle_bool_spec (qpow2 (2 * f + 1)) (s * s)) as [G|G].
    + replace (2 * (f + 1) - 1) with (2 * f + 1) by lia. replace (2 * (f + 1) + 1) with (2 * f + 1 + 1 + 1) by lia.
      pose proof (D (2 * f + 1 + 1)) as D3. split; [|nra].
      apply Qle_lteq in G. destruct G as [G|G]; [exact G|]. exfalso. apply (no_sqrt2_Q (s / qpow2 f)).
      assert (E : (s / qpow2 f * (s / qpow2 f) == s * s / qpow2 (2 * f))%Q) by (rewrite S2; field; lra).
      rewrite E, <- G, D1. field. pose proof (qpow2_pos (2 * f)). lra.
    + split; [|exact G]. pose proof (D (2 * f - 1)) as D4. replace (2 * f - 1 + 1) with (2 * f) in D4 by lia.
      pose proof (qpow2_pos (2 * f - 1)). nra.
  - unfold from_and_below. split; [exact L|exact U].
  - unfold above_and_upto. destruct (Qeq_bool s (qpow2 f)) eqn:E.
    + apply Qeq_bool_eq in E. change (Qpower 2) with qpow2. split; [|rewrite E; apply Qle_refl].
      pose proof (D (f - 1)) as D4. replace (f - 1 + 1) with f in D4 by lia. pose proof (qpow2_pos (f - 1)). lra.
    + apply Qeq_bool_neq in E. change (Qpower 2) with qpow2. replace (f + 1 - 1) with f by lia. split; [|lra].
      apply Qle_lteq in L. destruct L as [L|L]; [exact L|]. exfalso. apply E. rewrite L. reflexivity.
Qed.

(** Scaling moves the interval. *)
Lemma shifted r s w : (0 < s)%Q ->
  let e := log2_rounded r s in
  let x := (s / Qpower 2 (e - w))%Q in
  match r with RFloor => from_and_below w x | RCeil => above_and_upto w x | RRound => around w x end.
Proof.
  intros Hs e x. pose proof (log2_rounded_spec r s Hs) as L. cbn zeta in L. fold e in L. clearbody e.
  change (Qpower 2) with qpow2 in x. pose proof (qpow2_pos (e - w)) as P.
  assert (Ex : (s == x * qpow2 (e - w))%Q) by (unfold x; field; lra).
  assert (Ix : forall a b, (qpow2 a <= x <-> qpow2 (a + (e - w)) <= s)%Q /\ (x < qpow2 b <-> s < qpow2 (b + (e - w)))%Q /\
     (qpow2 a < x <-> qpow2 (a + (e - w)) < s)%Q /\ (x <= qpow2 b <-> s <= qpow2 (b + (e - w)))%Q).
  { intros a b. rewrite !qpow2_add, Ex. clear Ex. clearbody x. repeat split; intros; nra. }
  destruct r; unfold around, from_and_below, above_and_upto in *; change (Qpower 2) with qpow2 in *.
  - assert (Es : (s * s == x * x * qpow2 (2 * (e - w)))%Q).
    { rewrite Ex. replace (2 * (e - w)) with ((e - w) + (e - w)) by lia. rewrite qpow2_add. ring. }
    pose proof (qpow2_pos (2 * (e - w))) as P2. rewrite Es in L.
    assert (E1 : (qpow2 (2 * e - 1) == qpow2 (2 * w - 1) * qpow2 (2 * (e - w)))%Q) by (rewrite <- qpow2_add; replace (2 * w - 1 + 2 * (e - w)) with (2 * e - 1) by lia; reflexivity).
    assert (E2 : (qpow2 (2 * e + 1) == qpow2 (2 * w + 1) * qpow2 (2 * (e - w)))%Q) by (rewrite <- qpow2_add; replace (2 * w + 1 + 2 * (e - w)) with (2 * e + 1) by lia; reflexivity).
    rewrite E1, E2 in L. destruct L as [L1 L2]. split.
    + exact (proj1 (Qmult_lt_r _ _ _ P2) L1).
    + exact (proj1 (Qmult_lt_r _ _ _ P2) L2).
  - destruct (Ix w (w + 1)) as (I1 & I2 & _). rewrite I1, I2. replace (w + (e - w)) with e by lia. replace (w + 1 + (e - w)) with (e + 1) by lia. exact L.
  - destruct (Ix (w - 1) w) as (_ & _ & I3 & I4). rewrite I3, I4. replace (w - 1 + (e - w)) with (e - 1) by lia. replace (w + (e - w)) with e by lia. exact L.
Qed.

(** ** Quantiles *)
Lemma qinsert_perm x l : Permutation (x :: l) (qinsert x l).
Proof.
  induction l as [|y l IH]; cbn [qinsert]; [apply Permutation_refl|]. destruct (Qle_bool x y); [apply Permutation_refl|].
  eapply Permutation_trans; [apply perm_swap|]. apply perm_skip, IH.
Qed.
Lemma qsort_perm l : Permutation l (qsort l).
Proof.
  induction l as [|x l IH]; cbn [qsort]; [constructor|]. eapply Permutation_trans; [apply perm_skip, IH|]. apply qinsert_perm.
Qed.
Lemma qinsert_sorted x l : StronglySorted Qle l -> StronglySorted Qle (qinsert x l).
Proof.
  induction l as [|y l IH]; intros H; cbn [qinsert]; [repeat constructor|]. inversion H as [|? ? H1 H2]; subst.
  destruct (Qle_bool_spec x y) as [L|L].
  - constructor; [exact H|]. constructor; [exact L|]. apply Forall_forall. intros z Hz. rewrite Forall_forall in H2. specialize (H2 z Hz). lra.
  - constructor; [apply IH, H1|]. apply Forall_forall. intros z Hz.
    apply (Permutation_in _ (Permutation_sym (qinsert_perm x l))) in Hz. destruct Hz as [<-|Hz]; [lra|]. rewrite Forall_forall in H2. apply H2, Hz.
Qed.
Lemma qsort_sorted l : StronglySorted Qle (qsort l).
Proof. induction l; cbn [qsort]; [constructor|apply qinsert_sorted; assumption]. Qed.

Lemma sorted_nth l : StronglySorted Qle l -> forall i j, (i <= j < length l)%nat -> (nth i l 0 <= nth j l 0)%Q.
Proof.
  induction 1 as [|x l Hl IH Hx]; intros i j Hij; cbn [length] in *; [lia|].
  destruct i, j; cbn [nth]; try lia; [apply Qle_refl| |apply IH; lia].
  rewrite Forall_forall in Hx. apply Hx, nth_In. lia.
Qed.

Lemma sorted_extremes w : w <> [] -> extremes w (nth 0 (qsort w) 0%Q) (nth (length w - 1) (qsort w) 0%Q).
Proof.
  intros Hne. assert (L : length (qsort w) = length w) by (symmetry; apply Permutation_length, qsort_perm).
  assert (H0 : (0 < length w)%nat) by (destruct w; [contradiction|cbn; lia]).
  split; [|split].
  - apply (Permutation_in _ (Permutation_sym (qsort_perm w))), nth_In. lia.
  - apply (Permutation_in _ (Permutation_sym (qsort_perm w))), nth_In. lia.
  - apply Forall_forall. intros x Hx. apply (Permutation_in _ (qsort_perm w)) in Hx. apply (In_nth _ _ 0%Q) in Hx.
    destruct Hx as (i & Hi & <-). split; apply sorted_nth; try apply qsort_sorted; lia.
Qed.

Lemma Qfloor_Z z : Qfloor (inject_Z z) = z. Proof. apply Qfloor_spec; [apply Qle_refl|]. apply inject_Z_lt_iff. lia. Qed.

Lemma quantile_int w q k : (q * inject_Z (zlen w - 1) == inject_Z k)%Q -> (quantile w q == nth (Z.to_nat k) (qsort w) 0)%Q.
Proof.
  intros E. unfold quantile. set (r := (q * inject_Z (zlen w - 1))%Q) in *.
  assert (F : Qfloor r = k) by (rewrite (Qfloor_compat _ _ E); apply Qfloor_Z).
  assert (C : Qceiling r = k).
  { unfold Qceiling. rewrite (Qfloor_compat (- r) (inject_Z (- k))), Qfloor_Z by (rewrite E, inject_Z_opp; reflexivity). lia. }
  rewrite F, C, E. ring.
Qed.

Lemma quantile_bounds w q : w <> [] -> (0 <= q)%Q -> (q <= 1)%Q ->
  forall lo hi, extremes w lo hi -> (lo <= quantile w q /\ quantile w q <= hi)%Q.
Proof.
  intros Hne H0 H1 lo hi Hx. destruct (extremes_unique _ _ _ _ _ Hx (sorted_extremes w Hne)) as [El Eh].
  assert (L : length (qsort w) = length w) by (symmetry; apply Permutation_length, qsort_perm).
  assert (N0 : (0 < length w)%nat) by (destruct w; [contradiction|cbn; lia]).
  unfold quantile. set (r := (q * inject_Z (zlen w - 1))%Q).
  assert (N1 : 0 <= zlen w - 1) by (unfold zlen; lia).
  assert (N1Q : (0 <= inject_Z (zlen w - 1))%Q) by (change 0%Q with (inject_Z 0); apply inject_Z_le_iff; lia).
  assert (R : (0 <= r /\ r <= inject_Z (zlen w - 1))%Q) by (unfold r; split; nra).
  assert (F : 0 <= Qfloor r <= zlen w - 1).
  { destruct R as [R0 R1]. apply Qfloor_resp_le in R0. apply Qfloor_resp_le in R1. rewrite Qfloor_Z in R1. change (Qfloor 0) with 0 in R0. lia. }
  assert (C : Qfloor r <= Qceiling r <= zlen w - 1).
  { destruct R as [R0 R1]. split; [apply inject_Z_le_iff, Qle_floor_ceiling|]. apply Qceiling_resp_le in R1. rewrite Qceiling_Z in R1. exact R1. }
  pose proof (Qfloor_le r) as G1. pose proof (Qlt_floor r) as G2. rewrite inject_Z_plus in G2. change (inject_Z 1) with 1%Q in G2.
  assert (S1 : (nth 0 (qsort w) 0 <= nth (Z.to_nat (Qfloor r)) (qsort w) 0)%Q) by (apply sorted_nth; [apply qsort_sorted|unfold zlen in *; lia]).
  assert (S2 : (nth (Z.to_nat (Qfloor r)) (qsort w) 0 <= nth (Z.to_nat (Qceiling r)) (qsort w) 0)%Q) by (apply sorted_nth; [apply qsort_sorted|unfold zlen in *; lia]).
  assert (S3 : (nth (Z.to_nat (Qceiling r)) (qsort w) 0 <= nth (length w - 1) (qsort w) 0)%Q) by (apply sorted_nth; [apply qsort_sorted|unfold zlen in *; lia]).
  set (a := nth (Z.to_nat (Qfloor r)) (qsort w) 0%Q) in *. set (b := nth (Z.to_nat (Qceiling r)) (qsort w) 0%Q) in *.
  set (t := (r - inject_Z (Qfloor r))%Q). assert (T : (0 <= t /\ t <= 1)%Q) by (unfold t; lra). clearbody t a b.
  rewrite El, Eh. split; nra.
Qed.

Lemma extremes_max_abs w lo hi : extremes w lo hi -> is_max_abs w (qmax (Qabs hi) (Qabs lo)).
Proof.
  intros (A1 & A2 & A3). split.
  - unfold qmax. destruct (Qle_bool (Qabs hi) (Qabs lo)); [exists lo|exists hi]; (split; [assumption|reflexivity]).
  - apply Forall_forall. intros x Hx. rewrite Forall_forall in A3. specialize (A3 x Hx). destruct A3 as [B1 B2].
    pose proof (qmax_ge_l (Qabs hi) (Qabs lo)) as G1. pose proof (qmax_ge_r (Qabs hi) (Qabs lo)) as G2.
    set (mx := qmax (Qabs hi) (Qabs lo)) in *. clearbody mx.
    apply Qabs_Qle_condition. pose proof (Qle_Qabs hi). pose proof (Qle_Qabs (- lo)) as G3. rewrite Qabs_opp in G3. lra.
Qed.
Lemma max_abs_unique w a b : is_max_abs w a -> is_max_abs w b -> (a == b)%Q.
Proof.
  intros [(x & Hx & Ex) Fa] [(y & Hy & Ey) Fb]. rewrite Forall_forall in *. pose proof (Fa _ Hy). pose proof (Fb _ Hx). lra.
Qed.

Lemma qmax_ext a a' b b' : (a == a')%Q -> (b == b')%Q -> (qmax a b == qmax a' b')%Q.
Proof. intros H1 H2. unfold qmax. qcases; lra. Qed.

Theorem quantile_scale_spec : forall x q mx, is_max_abs x mx ->
  ((q == 1)%Q -> (quantile_scale x q == mx)%Q) /\
  ((0 <= q)%Q -> (q <= 1)%Q -> (0 <= quantile_scale x q /\ quantile_scale x q <= mx)%Q).
Proof.
  intros x q mx Hm. assert (Hne : x <> []) by (destruct Hm as [(y & Hy & _) _]; destruct x; [destruct Hy|discriminate]).
  pose proof (sorted_extremes x Hne) as Hx. pose proof (extremes_max_abs _ _ _ Hx) as Hm2.
  pose proof (max_abs_unique _ _ _ Hm Hm2) as Em.
  assert (N0 : (0 < length x)%nat) by (destruct x; [contradiction|cbn; lia]).
  set (lo := nth 0 (qsort x) 0%Q) in *. set (hi := nth (length x - 1) (qsort x) 0%Q) in *.
  split.
  - intros E. rewrite Em. unfold quantile_scale. apply qmax_ext; apply Qabs_wd.
    + rewrite (quantile_int x _ (zlen x - 1)).
      * replace (Z.to_nat (zlen x - 1)) with (length x - 1)%nat by (unfold zlen; lia). reflexivity.
      * rewrite E. field.
    + rewrite (quantile_int x _ 0); [reflexivity|]. rewrite E. change (inject_Z 0) with 0%Q. field.
  - intros Q0 Q1. unfold quantile_scale. rewrite Em.
    set (a := ((1 # 2) + q / 2)%Q). set (b := ((1 # 2) - q / 2)%Q).
    assert (Ea : (a == (1 # 2) + q * (1 # 2))%Q) by (unfold a; field). assert (Eb : (b == (1 # 2) - q * (1 # 2))%Q) by (unfold b; field).
    pose proof (quantile_bounds x a Hne ltac:(lra) ltac:(lra) lo hi Hx) as [A1 A2].
    pose proof (quantile_bounds x b Hne ltac:(lra) ltac:(lra) lo hi Hx) as [B1 B2].
    set (u := quantile x a) in *. set (v := quantile x b) in *. clearbody u v.
    pose proof (qmax_ge_l (Qabs hi) (Qabs lo)) as G1. pose proof (qmax_ge_r (Qabs hi) (Qabs lo)) as G2.
    pose proof (Qle_Qabs hi). pose proof (Qle_Qabs (- lo)) as G3. rewrite Qabs_opp in G3.
    assert (Bu : (Qabs u <= qmax (Qabs hi) (Qabs lo))%Q) by (apply Qabs_Qle_condition; lra).
    assert (Bv : (Qabs v <= qmax (Qabs hi) (Qabs lo))%Q) by (apply Qabs_Qle_condition; lra).
    pose proof (Qabs_nonneg u). split; [eapply Qle_trans; [|apply qmax_ge_l]; assumption|].
    unfold qmax at 1. destruct (Qle_bool (Qabs u) (Qabs v)); assumption.
Qed.

Definition normalised (r : rounding) (w : Z) (x : Q) : Prop :=
  match r with RFloor => from_and_below w x | RCeil => above_and_upto w x | RRound => around w x end.

Theorem rshift_offset_spec : forall input weight widthi widthw r qi qw, input <> [] -> weight <> [] ->
  let si := quantile_scale input qi in
  let sw := quantile_scale weight qw in
  ((si == 0 \/ sw == 0)%Q -> rshift_offset input weight widthi widthw r qi qw = Ok None) /\
  (~ (si == 0)%Q -> ~ (sw == 0)%Q -> exists ri rw ro, rshift_offset input weight widthi widthw r qi qw = Ok (Some (ri, rw, ro)) /\
     normalised r widthi (si / Qpower 2 ri) /\ normalised r widthw (sw / Qpower 2 rw) /\
     ro = Z.max widthi widthw - (ri + widthi) - (rw + widthw)).
Proof.
  intros input weight widthi widthw r qi qw Hi Hw si sw.
  assert (Ni : (0 <= si)%Q) by (unfold si, quantile_scale; eapply Qle_trans; [apply Qabs_nonneg|apply qmax_ge_l]).
  assert (Nw : (0 <= sw)%Q) by (unfold sw, quantile_scale; eapply Qle_trans; [apply Qabs_nonneg|apply qmax_ge_l]).
  unfold rshift_offset. destruct input as [|i0 input]; [contradiction|]. destruct weight as [|w0 weight]; [contradiction|].
  fold si sw. clearbody si sw. split.
  - intros H. destruct (Qle_bool_spec si 0) as [L|L]; [reflexivity|]. destruct (Qle_bool_spec sw 0) as [L2|L2]; [reflexivity|].
    exfalso. destruct H; lra.
  - intros H1 H2. assert (P1 : (0 < si)%Q) by (apply Qle_lteq in Ni; destruct Ni as [N|N]; [exact N|exfalso; apply H1; rewrite <- N; reflexivity]).
    assert (P2 : (0 < sw)%Q) by (apply Qle_lteq in Nw; destruct Nw as [N|N]; [exact N|exfalso; apply H2; rewrite <- N; reflexivity]).
    destruct (Qle_bool_spec si 0) as [L|L]; [lra|]. destruct (Qle_bool_spec sw 0) as [L2|L2]; [lra|]. cbn [orb].
    do 3 eexists. split; [reflexivity|]. split; [apply (shifted r si widthi P1)|]. split; [apply (shifted r sw widthw P2)|lia].
Qed.
