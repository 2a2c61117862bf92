(** Proofs for C79. *)
From Coq Require Import String Lqa.
Require Import Verif.BaseLemmas Verif.SobolProof Verif.GenModel Verif.GenProof Verif.KernelModel Verif.KernelProof Verif.AddModel Verif.AddProof
  Verif.LinearModel Verif.LinearProof Verif.ConvModel Verif.ConvProof Verif.NameSpec Verif.NameProof Verif.NewSpec Verif.ConvErrSpec
  Verif.ProgSpec Verif.ProgProof Verif.NetSpec Verif.NetProof Verif.TensorModel Verif.TensorSpec Verif.TensorProof Verif.CnnModel Verif.CnnSpec.
Open Scope Z_scope.

(** ** FSUReLU: the counter as a walk reflected at -1 and clamped at the top *)
Section ReluWalk.
  Variables (half : Z) (S O r : nat -> Z) (N : nat).
  Hypothesis Hhalf : 1 <= half.
  Hypothesis S0 : S 0%nat = 0.
  Hypothesis O0 : O 0%nat = 0.
  Hypothesis r0 : -1 <= r 0%nat <= half - 1.
  Hypothesis St : forall t, (t < N)%nat -> (S (t + 1)%nat = S t + 1 \/ S (t + 1)%nat = S t - 1) /\
    (0 <= r t -> O (t + 1)%nat - O t = S (t + 1)%nat - S t) /\ (r t < 0 -> O (t + 1)%nat = O t + 1) /\
    r (t + 1)%nat = Z.min (r t + (O (t + 1)%nat - O t)) (half - 1).

  Lemma relu_up d1 d2 : d2 < half -> 0 <= d1 -> (forall t, (t <= N)%nat -> - d1 <= S t) -> (forall s t, (s <= t <= N)%nat -> - d2 <= S t - S s) ->
    forall t, (t <= N)%nat -> S t <= O t <= S t + Z.max 0 (d1 + 1 - r 0%nat).
  Proof.
    intros H2 Hd1 H1 H21 t Ht.
    enough (I : -1 <= r t <= half - 1 /\ S t <= O t <= S t + Z.max 0 (d1 + 1 - r 0%nat) /\
      (r t = r 0%nat + O t \/ exists u, (u <= t)%nat /\ r t = half - 1 + S t - S u)) by tauto.
    induction t as [|t IH].
    - rewrite S0, O0. repeat split; try lia.
    - specialize (IH ltac:(lia)). destruct IH as (A & B & C). destruct (St t ltac:(lia)) as (X & Y & Z & W). replace (t + 1)%nat with (Datatypes.S t) in * by lia.
      pose proof (H1 t ltac:(lia)) as L. pose proof (H1 (Datatypes.S t) Ht) as L'.
      destruct C as [C|(u & Hu & C)].
      + assert (D : 0 <= r t \/ r t = -1) by lia. destruct D as [D|D].
        * specialize (Y D). split; [lia|]. split; [lia|].
          destruct (Z_le_gt_dec (r t + (O (Datatypes.S t) - O t)) (half - 1)); [left; lia|right; exists (Datatypes.S t); split; lia].
        * specialize (Z ltac:(lia)). split; [lia|]. split; [lia|]. left. lia.
      + pose proof (H21 u t ltac:(lia)) as L2. pose proof (H21 u (Datatypes.S t) ltac:(lia)) as L3. specialize (Y ltac:(lia)). split; [lia|]. split; [lia|].
        right. destruct (Z_le_gt_dec (r t + (O (Datatypes.S t) - O t)) (half - 1)); [exists u; split; lia|exists (Datatypes.S t); split; lia].
  Qed.

  Lemma relu_down d1 d2 c : d2 < half -> 0 <= d1 -> (forall t, (t <= N)%nat -> S t <= d1) -> (forall s t, (s <= t <= N)%nat -> S t - S s <= d2) ->
    (d1 + 1 <= c \/ (r 0%nat = 0 /\ 0 <= c /\ d1 < half)) ->
    forall t, (t <= N)%nat -> -1 - r 0%nat <= O t <= Z.max d1 (c + d2).
  Proof.
    intros H2 Hd1 H1 H21 Hc t Ht.
    enough (I : -1 <= r t <= half - 1 /\ r t - r 0%nat <= O t <= Z.max d1 (c + d2) /\
      ((O t = S t /\ (r 0%nat = 0 -> d1 < half -> r t = S t)) \/
       exists u, (u <= t)%nat /\ r t = S t - S u /\ O t <= c + r t)) by lia.
    induction t as [|t IH].
    - rewrite S0, O0. specialize (H21 0%nat 0%nat ltac:(lia)). repeat split; try lia.
    - specialize (IH ltac:(lia)). destruct IH as (A & B & C). destruct (St t ltac:(lia)) as (X & Y & Z & W). replace (t + 1)%nat with (Datatypes.S t) in * by lia.
      pose proof (H1 t ltac:(lia)) as L. pose proof (H1 (Datatypes.S t) Ht) as L'.
      destruct C as [(C & C')|(u & Hu & C & C')].
      + assert (D : 0 <= r t \/ r t = -1) by lia. destruct D as [D|D].
        * specialize (Y D). split; [lia|]. split; [lia|]. left. lia.
        * specialize (Z ltac:(lia)). pose proof (H21 (Datatypes.S t) (Datatypes.S t) ltac:(lia)) as L2. split; [lia|]. split; [lia|]. right. exists (Datatypes.S t). lia.
      + pose proof (H21 u t ltac:(lia)) as L2. pose proof (H21 u (Datatypes.S t) ltac:(lia)) as L3. pose proof (H21 t t ltac:(lia)) as L4.
        assert (D : 0 <= r t \/ r t = -1) by lia. destruct D as [D|D].
        * specialize (Y D). split; [lia|]. split; [lia|]. right. exists u. lia.
        * specialize (Z ltac:(lia)). split; [lia|]. split; [lia|]. right. exists (Datatypes.S t). lia.
  Qed.
End ReluWalk.

Lemma firstn_S_nth {A} (l : list A) d t : (t < length l)%nat -> firstn (t + 1) l = firstn t l ++ [nth t l d].
Proof.
  revert t. induction l as [|a l IH]; intros t Ht; [cbn in Ht; lia|]. destruct t as [|t]; [reflexivity|].
  change (firstn (Datatypes.S t + 1) (a :: l)) with (a :: firstn (t + 1) l). rewrite IH by (cbn in Ht; lia). reflexivity.
Qed.
Lemma relu_cases d a x : bit x -> fsurelu_step d a x =
  if a >=? p2 d then (zclamp 0 (p2 (Datatypes.S d) - 1) (a + (2 * x - 1)), x) else (zclamp 0 (p2 (Datatypes.S d) - 1) (a + 1), 1).
Proof. intros [-> | ->]; unfold fsurelu_step; destruct (a >=? p2 d); reflexivity. Qed.
Lemma relu_inv d : forall xs, bits xs -> p2 d - 1 <= final (fsurelu_step d) (fsurelu_init d) xs <= p2 (Datatypes.S d) - 1.
Proof.
  intros xs. pose proof (p2_pos d) as P. pose proof (p2_S d) as PS. induction xs as [|x xs IH] using rev_ind; intros H.
  - change (final (fsurelu_step d) (fsurelu_init d) []) with (p2 d). lia.
  - apply bits_snoc in H. destruct H as [H Hx]. specialize (IH H). rewrite final_snoc. set (a := final _ _ xs) in *. clearbody a.
    rewrite relu_cases by exact Hx. unfold zclamp. destruct (a >=? p2 d) eqn:E; cbn [fst]; destruct Hx as [-> | ->]; lia.
Qed.
Lemma relu_bits d : forall xs a, bits xs -> bits (outs (fsurelu_step d) a xs).
Proof.
  induction xs as [|x xs IH] using rev_ind; intros a H; [constructor|]. apply bits_snoc in H. destruct H as [H Hx]. rewrite outs_snoc. apply bits_snoc. split; [apply IH; exact H|].
  rewrite relu_cases by exact Hx. destruct (_ >=? p2 d); cbn [snd]; [exact Hx|right; reflexivity].
Qed.
Lemma outs_length {St I Ou} (step : St -> I -> St * Ou) xs : forall s, length (outs step s xs) = length xs.
Proof.
  induction xs as [|x xs IH]; intros s; [reflexivity|]. unfold outs. cbn [run]. destruct (step s x) as [s1 o]. specialize (IH s1). unfold outs in IH.
  destruct (run step s1 xs) as [s2 os]. cbn [snd length] in *. congruence.
Qed.
Lemma progress_walk K v xs t : progresses Bipolar 0 K v xs -> (t <= length xs)%nat -> (0 <= K)%Q ->
  (Qabs (inject_Z (walk (firstn t xs)) - v * inject_Z (Z.of_nat t)) <= 2 * K)%Q.
Proof.
  intros P Ht HK. destruct t as [|t].
  - cbn [firstn]. change (inject_Z (walk [])) with 0%Q. change (inject_Z (Z.of_nat 0)) with 0%Q. apply qabs_le. split; lra.
  - specialize (P (Datatypes.S t) ltac:(lia)). unfold value in P. rewrite zlen_firstn in P by exact Ht. set (T := inject_Z (Z.of_nat (Datatypes.S t))) in *.
    assert (TP : (0 < T)%Q) by (apply inj_pos; lia). set (w := inject_Z (walk (firstn (Datatypes.S t) xs))) in *. clearbody T w.
    apply qabs_le in P. apply qabs_le. unfold span in P.
    assert (E1 : (w - v * T == (w / T - v) * T)%Q) by (field; lra). rewrite E1.
    assert (E2 : (2 * K == (2 * K / T) * T)%Q) by (field; lra). rewrite E2. set (a := (w / T - v)%Q) in *. set (b := (2 * K / T)%Q) in *. clearbody a b.
    split; nra.
Qed.
Lemma walk_progress K v xs : (forall t, (t <= length xs)%nat -> (Qabs (inject_Z (walk (firstn t xs)) - v * inject_Z (Z.of_nat t)) <= 2 * K)%Q) ->
  progresses Bipolar 0 K v xs.
Proof.
  intros P t Ht. specialize (P t ltac:(lia)). unfold value, span. rewrite zlen_firstn by lia. set (T := inject_Z (Z.of_nat t)) in *.
  assert (TP : (0 < T)%Q) by (apply inj_pos; lia). set (w := inject_Z (walk (firstn t xs))) in *. clearbody T w.
  apply qabs_le in P. apply qabs_le.
  assert (E1 : ((w / T - v) * T == w - v * T)%Q) by (field; lra). assert (E2 : ((0 + 2 * K / T) * T == 2 * K)%Q) by (field; lra).
  split; apply (Qmult_le_r _ _ T TP); rewrite E1; [setoid_replace (- (0 + 2 * K / T) * T)%Q with (- ((0 + 2 * K / T) * T))%Q by ring|]; rewrite E2; lra.
Qed.

Theorem relu_progress d K v (used : bool) pre xs : bits pre -> bits xs -> (used = false -> pre = []) -> (0 <= K)%Q -> (4 * K < inject_Z (p2 d))%Q ->
  progresses Bipolar 0 K v xs ->
  progresses Bipolar 0 (relu_slack used d K) (pos_part v) (outs (fsurelu_step d) (final (fsurelu_step d) (fsurelu_init d) pre) xs).
Proof.
  intros Hp Hx Hu HK Hd P. set (a0 := final (fsurelu_step d) (fsurelu_init d) pre).
  assert (A0 : p2 d - 1 <= a0 <= p2 (Datatypes.S d) - 1) by exact (relu_inv d pre Hp).
  assert (A1 : used = false -> a0 = p2 d) by (intros X; unfold a0; rewrite (Hu X); reflexivity). clearbody a0. clear Hp Hu pre.
  rewrite p2_S in A0. pose proof (p2_pos d) as PP.
  apply walk_progress. rewrite outs_length. intros t Ht.
  set (S := fun t => walk (firstn t xs)). set (O := fun t => walk (outs (fsurelu_step d) a0 (firstn t xs))).
  set (r := fun t => final (fsurelu_step d) a0 (firstn t xs) - p2 d).
  assert (INV : forall t, -1 <= r t <= p2 d - 1).
  { intros u. unfold r. assert (Hb : bits (firstn u xs)) by (apply forall_firstn; exact Hx). revert Hb. generalize (firstn u xs). clear - A0 PP.
    intros l. induction l as [|x l IH] using rev_ind; intros H; [change (final (fsurelu_step d) a0 []) with a0; lia|].
    apply bits_snoc in H. destruct H as [H Hx]. specialize (IH H). rewrite final_snoc. set (a := final _ _ l) in *. clearbody a.
    pose proof (p2_S d) as PS. rewrite relu_cases by exact Hx. unfold zclamp.
    destruct (a >=? p2 d) eqn:E; cbn [fst]; destruct Hx as [-> | ->]; lia. }
  assert (ST : forall t, (t < length xs)%nat -> (S (t + 1)%nat = S t + 1 \/ S (t + 1)%nat = S t - 1) /\
    (0 <= r t -> O (t + 1)%nat - O t = S (t + 1)%nat - S t) /\ (r t < 0 -> O (t + 1)%nat = O t + 1) /\
    r (t + 1)%nat = Z.min (r t + (O (t + 1)%nat - O t)) (p2 d - 1)).
  { intros u Hu. pose proof (INV u) as IV. unfold S, O, r in *. rewrite (firstn_S_nth xs 0) by exact Hu.
    assert (Hn : bit (nth u xs 0)) by (unfold bits in Hx; rewrite Forall_forall in Hx; apply Hx, nth_In; exact Hu).
    assert (Hf : bits (firstn u xs)) by (apply forall_firstn; exact Hx).
    set (x := nth u xs 0) in *. set (l := firstn u xs) in *. clearbody x l.
    rewrite final_snoc, outs_snoc, walk_snoc by exact Hn.
    pose proof (relu_bits d (l ++ [x]) a0 ltac:(apply bits_snoc; split; assumption)) as Hb. rewrite outs_snoc in Hb. apply bits_snoc in Hb. destruct Hb as [_ Hb].
    rewrite walk_snoc by exact Hb. set (a := final _ a0 l) in *. set (w := walk (outs _ a0 l)). clearbody a w.
    pose proof (p2_S d) as PS. rewrite relu_cases by exact Hn. unfold zclamp.
    destruct (a >=? p2 d) eqn:E; cbn [fst snd]; destruct Hn as [-> | ->]; lia. }
  assert (W : forall t, (t <= length xs)%nat -> (Qabs (inject_Z (S t) - v * inject_Z (Z.of_nat t)) <= 2 * K)%Q) by (intros u Hu; exact (progress_walk K v xs u P Hu HK)).
  rewrite outs_firstn. change (walk (outs (fsurelu_step d) a0 (firstn t xs))) with (O t).
  set (d1 := Qfloor (2 * K)). set (d2 := Qfloor (4 * K)).
  pose proof (Qfloor_le (2 * K)) as F1. pose proof (Qlt_floor (2 * K)) as G1. fold d1 in F1, G1.
  pose proof (Qfloor_le (4 * K)) as F2. pose proof (Qlt_floor (4 * K)) as G2. fold d2 in F2, G2.
  assert (D2 : d2 < p2 d) by (rewrite Zlt_Qlt; lra).
  assert (D1 : 0 <= d1) by (assert (0 < d1 + 1) by (rewrite Zlt_Qlt; change (inject_Z 0) with 0%Q; lra); lia).
  assert (D12 : d1 <= d2) by (assert (d1 < d2 + 1) by (rewrite Zlt_Qlt; lra); lia).
  assert (LB : forall z, (inject_Z z <= 2 * K)%Q -> z <= d1) by (intros z Hz; assert (z < d1 + 1) by (rewrite Zlt_Qlt; lra); lia).
  assert (LB2 : forall z, (inject_Z z <= 4 * K)%Q -> z <= d2) by (intros z Hz; assert (z < d2 + 1) by (rewrite Zlt_Qlt; lra); lia).
  assert (S00 : S 0%nat = 0) by reflexivity. assert (O00 : O 0%nat = 0) by reflexivity.
  assert (R0 : r 0%nat = a0 - p2 d) by reflexivity.
  pose proof (W t Ht) as Wt. apply qabs_le in Wt. set (T := inject_Z (Z.of_nat t)) in *.
  assert (T0 : forall u, (0 <= inject_Z (Z.of_nat u))%Q) by (intros u; change 0%Q with (inject_Z 0); rewrite <- Zle_Qle; lia).
  assert (Hs1 : (3 * K + 1 <= relu_slack true d K)%Q /\ (inject_Z (p2 d) / 2 <= relu_slack true d K)%Q).
  { unfold relu_slack. destruct (Qle_bool _ _) eqn:E; [apply Qle_bool_iff in E; split; lra|].
    split; [lra|]. destruct (Qlt_le_dec (inject_Z (p2 d) / 2) (3 * K + 1)) as [X|X]; [lra|]. apply Qle_bool_iff in X. congruence. }
  assert (HALF : (inject_Z (p2 d) / 2 == inject_Z (p2 d) * (1 # 2))%Q) by field. rewrite HALF in Hs1.
  unfold pos_part. destruct (Qle_bool 0 v) eqn:EV.
  - apply Qle_bool_iff in EV.
    assert (X1 : forall u, (u <= length xs)%nat -> - d1 <= S u).
    { intros u Hu. specialize (W u Hu). apply qabs_le in W. specialize (T0 u). assert ((0 <= v * inject_Z (Z.of_nat u))%Q) by nra.
      enough (- S u <= d1) by lia. apply LB. rewrite inject_Z_opp. lra. }
    assert (X2 : forall s u, (s <= u <= length xs)%nat -> - d2 <= S u - S s).
    { intros s u Hu. pose proof (W u ltac:(lia)) as W1. pose proof (W s ltac:(lia)) as W2. apply qabs_le in W1, W2.
      assert (TU : (inject_Z (Z.of_nat s) <= inject_Z (Z.of_nat u))%Q) by (rewrite <- Zle_Qle; lia).
      assert ((v * inject_Z (Z.of_nat s) <= v * inject_Z (Z.of_nat u))%Q) by nra.
      enough (- (S u - S s) <= d2) by lia. apply LB2. unfold Z.sub. rewrite inject_Z_opp, inject_Z_plus, inject_Z_opp. lra. }
    pose proof (relu_up (p2 d) S O r (length xs) ltac:(lia) S00 O00 (INV 0%nat) ST d1 d2 D2 D1 X1 X2 t Ht) as [B1 B2].
    destruct used.
    + assert (B3 : O t <= S t + (d1 + 2)) by lia. rewrite Zle_Qle in B1, B3. rewrite !inject_Z_plus in B3. change (inject_Z 2) with 2%Q in B3. apply qabs_le. split; lra.
    + assert (B3 : O t <= S t + (d1 + 1)) by (specialize (A1 eq_refl); lia). rewrite Zle_Qle in B1, B3. rewrite !inject_Z_plus in B3. change (inject_Z 1) with 1%Q in B3.
      apply qabs_le. unfold relu_slack. split; lra.
  - assert (EV' : (v < 0)%Q) by (destruct (Qlt_le_dec v 0) as [X|X]; [exact X|apply Qle_bool_iff in X; congruence]). clear EV.
    assert (X1 : forall u, (u <= length xs)%nat -> S u <= d1).
    { intros u Hu. specialize (W u Hu). apply qabs_le in W. specialize (T0 u). assert ((v * inject_Z (Z.of_nat u) <= 0)%Q) by nra. apply LB. lra. }
    assert (X2 : forall s u, (s <= u <= length xs)%nat -> S u - S s <= d2).
    { intros s u Hu. pose proof (W u ltac:(lia)) as W1. pose proof (W s ltac:(lia)) as W2. apply qabs_le in W1, W2.
      assert (TU : (inject_Z (Z.of_nat s) <= inject_Z (Z.of_nat u))%Q) by (rewrite <- Zle_Qle; lia).
      assert ((v * inject_Z (Z.of_nat u) <= v * inject_Z (Z.of_nat s))%Q) by nra.
      apply LB2. unfold Z.sub. rewrite inject_Z_plus, inject_Z_opp. lra. }
    destruct used.
    + pose proof (relu_down (p2 d) S O r (length xs) ltac:(lia) S00 O00 (INV 0%nat) ST d1 d2 (d1 + 1) D2 D1 X1 X2 ltac:(left; lia) t Ht) as [B1 B2].
      assert (B3 : - p2 d <= O t) by lia. assert (B4 : O t <= d1 + 1 + d2) by lia. rewrite Zle_Qle in B3, B4. rewrite !inject_Z_plus in B4. rewrite inject_Z_opp in B3.
      change (inject_Z 1) with 1%Q in B4. apply qabs_le. split; lra.
    + specialize (A1 eq_refl). pose proof (relu_down (p2 d) S O r (length xs) ltac:(lia) S00 O00 (INV 0%nat) ST d1 d2 0 D2 D1 X1 X2 ltac:(right; lia) t Ht) as [B1 B2].
      assert (B3 : -1 <= O t) by lia. assert (B4 : O t <= d2) by lia. rewrite Zle_Qle in B3, B4. change (inject_Z (-1)) with (-1)%Q in B3.
      apply qabs_le. unfold relu_slack. split; lra.
Qed.

(** ** Modules that follow a real function *)
Definition follows (m : mode) (M : machine) (s s' : list nat) (used : bool) (q K q' K' : Q) (f : (list nat -> Q) -> list nat -> Q) : Prop :=
  forall h1 h2 v, hist_ok s h1 -> hist_ok s h2 -> (used = false -> h1 = []) ->
  (forall i, valid s i -> (Qabs (v i) <= 1)%Q /\ tracks m q K (v i) (tlane h2 i)) ->
  exists os1 os2, outputs (run_r (m_step M) (m_init M) (h1 ++ h2)) = Some (os1 ++ os2) /\ length os1 = length h1 /\ length os2 = length h2 /\
    hist_ok s' os1 /\ hist_ok s' os2 /\ forall i, valid s' i -> (Qabs (f v i) <= 1)%Q /\ tracks m q' K' (f v i) (tlane os2 i).

Lemma seq_run M N : forall h s ss mid os,
  outputs (run_r (m_step M) s h) = Some mid -> outputs (run_r (m_step N) ss mid) = Some os ->
  outputs (run_r (m_step (m_seq M N)) (s, ss) h) = Some os.
Proof.
  induction h as [|x h IH]; intros s ss mid os H1 H2.
  - cbn in H1. injection H1 as <-. exact H2.
  - cbn [run_r] in H1. destruct (m_step M s x) as [[s1 y]|e] eqn:F; [|discriminate].
    destruct (run_r (m_step M) s1 h) as [[s2 ys]|e] eqn:R; [|discriminate].
    cbn [outputs] in H1. injection H1 as <-. cbn [run_r] in H2. destruct (m_step N ss y) as [[ss1 z]|e] eqn:G; [|discriminate].
    destruct (run_r (m_step N) ss1 ys) as [[ss2 zs]|e] eqn:R2; [|discriminate]. cbn [outputs] in H2. injection H2 as <-.
    assert (ST : m_step (m_seq M N) (s, ss) x = Ok ((s1, ss1), z)) by (cbn [m_seq m_step fst snd]; rewrite F; cbn [bind fst snd]; rewrite G; reflexivity).
    cbn [run_r]. rewrite ST. specialize (IH s1 ss1 ys zs). rewrite R, R2 in IH. specialize (IH eq_refl eq_refl).
    destruct (run_r (m_step (m_seq M N)) (s1, ss1) h) as [[ss3 ws]|e]; [|discriminate]. cbn [outputs] in *. injection IH as ->. reflexivity.
Qed.
Lemma follows_seq m M N s s1 s2 used q K q1 K1 q2 K2 f g :
  follows m M s s1 used q K q1 K1 f -> follows m N s1 s2 used q1 K1 q2 K2 g -> follows m (m_seq M N) s s2 used q K q2 K2 (fun v => g (f v)).
Proof.
  intros F G h1 h2 v H1 H2 Hu Hv. destruct (F h1 h2 v H1 H2 Hu Hv) as (m1 & m2 & R & L1 & L2 & O1 & O2 & P).
  assert (Hu' : used = false -> m1 = []) by (intros X; rewrite (Hu X) in L1; destruct m1; [reflexivity|discriminate]).
  destruct (G m1 m2 (f v) O1 O2 Hu' P) as (o1 & o2 & R' & L3 & L4 & O3 & O4 & P').
  exists o1, o2. split; [exact (seq_run M N (h1 ++ h2) (m_init M) (m_init N) (m1 ++ m2) (o1 ++ o2) R R')|].
  split; [congruence|]. split; [congruence|]. split; [exact O3|]. split; [exact O4|exact P'].
Qed.
Lemma id_run (s : unit) h : outputs (run_r (m_step m_id) s h) = Some h.
Proof.
  revert s. induction h as [|x h IH]; intros s; [reflexivity|]. cbn [run_r]. cbn [m_id m_step]. specialize (IH s). cbn [m_id m_step] in IH.
  match goal with |- context [match ?r with _ => _ end] => destruct r as [[s' o]|e] end; [|discriminate]. cbn [outputs] in *. injection IH as ->. reflexivity.
Qed.
Lemma follows_id m s used q K : follows m m_id s s used q K q K (fun v => v).
Proof. intros h1 h2 v H1 H2 Hu Hv. exists h1, h2. split; [apply id_run|]. auto. Qed.

(** A module around a function from lists to lists. *)
Lemma wrap_run {S X Y} (dec : tensor Z -> result X) (enc : Y -> tensor Z) (step : S -> X * option Q * option Z -> result (S * Y)) : forall h xs s os,
  map dec h = map (@Ok X) xs -> outputs (run_r step s (map (fun x => (x, None, None)) xs)) = Some os ->
  outputs (run_r (fun s x => bind (dec x) (fun y => bind (step s (y, None, None)) (fun r => Ok (fst r, enc (snd r))))) s h) = Some (map enc os).
Proof.
  induction h as [|x h IH]; intros xs s os D H.
  - destruct xs; [|discriminate]. cbn in H. injection H as <-. reflexivity.
  - destruct xs as [|y xs]; [discriminate|]. cbn [map] in D. injection D as Dx D. cbn [map run_r] in H. cbn [run_r]. rewrite Dx. cbn [bind].
    destruct (step s (y, None, None)) as [[s1 o]|e]; [|discriminate]. cbn [bind fst snd].
    destruct (run_r step s1 _) as [[s2 os']|e] eqn:R; [|discriminate]. cbn [outputs] in H. injection H as <-.
    specialize (IH xs s1 os' D). rewrite R in IH. specialize (IH eq_refl). match goal with |- context [match ?r with _ => _ end] => destruct r as [[s3 ws]|e] end; [|discriminate].
    cbn [outputs map] in *. injection IH as ->. reflexivity.
Qed.

(** A value for every index. *)
Lemma pick_nat {A} (a0 : A) n (P : nat -> A -> Prop) : (forall i, (i < n)%nat -> exists a, P i a) -> exists f, forall i, (i < n)%nat -> P i (f i).
Proof.
  induction n as [|n IH]; intros H; [exists (fun _ => a0); intros i Hi; lia|].
  destruct IH as [f Hf]; [intros i Hi; apply H; lia|]. destruct (H n ltac:(lia)) as [a Ha].
  exists (fun i => if (i =? n)%nat then a else f i). intros i Hi. destruct (Nat.eqb_spec i n) as [->|Hn]; [exact Ha|apply Hf; lia].
Qed.
Lemma pick {A} (a0 : A) s : forall P : list nat -> A -> Prop, (forall i, valid s i -> exists a, P i a) -> exists f, forall i, valid s i -> P i (f i).
Proof.
  induction s as [|d s IH]; intros P H.
  - destruct (H [] Logic.I) as [a Ha]. exists (fun _ => a). intros i Hi. destruct i; [exact Ha|destruct Hi].
  - assert (G : forall j, (j < d)%nat -> exists f : list nat -> A, forall i, valid s i -> P (j :: i) (f i)).
    { intros j Hj. apply (IH (fun i a => P (j :: i) a)). intros i Hi. apply H. split; assumption. }
    destruct (pick_nat (fun _ => a0) d _ G) as [F HF]. exists (fun i => match i with j :: i' => F j i' | [] => a0 end).
    intros i Hi. destruct i as [|j i]; [destruct Hi|]. destruct Hi as [Hj Hi]. apply HF; assumption.
Qed.

Lemma hist_app s h1 h2 : hist_ok s h1 -> hist_ok s h2 -> hist_ok s (h1 ++ h2).
Proof. intros A B. apply Forall_app. split; assumption. Qed.
Lemma tlane_app h1 h2 i : tlane (h1 ++ h2) i = tlane h1 i ++ tlane h2 i.
Proof. unfold tlane. apply map_app. Qed.
Lemma tlane_bits s h i : hist_ok s h -> valid s i -> bits (tlane h i).
Proof. intros H V. apply Forall_forall. intros z Hz. apply in_map_iff in Hz. destruct Hz as (x & <- & Hx). unfold hist_ok in H. rewrite Forall_forall in H. apply (proj2 (H x Hx)). exact V. Qed.
Lemma tlane_length h i : length (tlane h i) = length h.
Proof. apply map_length. Qed.
Lemma tracks_value m q K v xs : tracks m q K v xs -> (0 <= K)%Q -> progresses m q K v xs.
Proof.
  intros (v' & A & _ & P) HK t Ht. specialize (P t Ht). apply qabs_le in A, P. apply qabs_le. split; lra.
Qed.

(** ** Tensors of one shape through a module that works position by position *)
Lemma bshape_one s : s <> [] -> bshape [1%nat] s = Some s.
Proof.
  intros H. destruct s as [|a s]; [contradiction|]. cbn [bshape]. unfold bdim. destruct (Nat.eqb_spec 1 a) as [<-|N]; reflexivity.
Qed.
Lemma bshape_same s : bshape s s = Some s.
Proof. induction s as [|a s IH]; [reflexivity|]. cbn [bshape]. unfold bdim. rewrite Nat.eqb_refl, IH. reflexivity. Qed.
Lemma bidx_valid s : forall i, valid s i -> bidx s i = i.
Proof.
  induction s as [|a s IH]; intros i V; destruct i as [|j i]; try reflexivity; [destruct V|]. destruct V as [Vj V]. cbn [bidx]. rewrite IH by exact V.
  destruct (Nat.eqb_spec a 1) as [->|N]; [assert (j = 0%nat) as -> by lia; reflexivity|reflexivity].
Qed.
Lemma hshape_const {TX} (xshape : TX -> option (list nat)) s : s <> [] -> forall h : list TX, Forall (fun x => xshape x = Some s) h ->
  hshape xshape s h = Some s /\ (h <> [] -> hshape xshape [1%nat] h = Some s).
Proof.
  intros Hs h H. assert (A : hshape xshape s h = Some s).
  { induction H as [|x h Hx H IH]; [reflexivity|]. cbn [hshape]. rewrite Hx, bshape_same. exact IH. }
  split; [exact A|]. intros Hn. destruct H as [|x h Hx H]; [contradiction|]. cbn [hshape] in *. rewrite Hx, bshape_one by exact Hs. rewrite Hx, bshape_same in A. exact A.
Qed.

(** Every position of every output is that of the one-position machine. *)
Lemma lanewise_lanes {X St} (xshape : tensor Z -> option (list nat)) (xat : tensor Z -> list nat -> X) {TS}
  (T : TS -> tensor Z -> result (TS * tensor Z)) st0 (f : St -> X -> St * Z) s0 s h : s <> [] ->
  lanewise_on xshape xat out1 oat1 T st0 f s0 h -> Forall (fun x => xshape x = Some s) h ->
  exists os, outputs (run_r T st0 h) = Some os /\ length os = length h /\ Forall (fun y => shp y = s) os /\
    forall i, valid s i -> tlane os i = outs f s0 (map (fun x => xat x i) h).
Proof.
  intros Hs L H. unfold lanewise_on in L. destruct h as [|x0 h0].
  - exists []. repeat split; constructor.
  - set (h := x0 :: h0) in *. destruct (hshape_const xshape s Hs h H) as [_ E]. rewrite (E ltac:(discriminate)) in L.
    destruct L as (st & ys & R & Ly & P). exists ys. rewrite R. split; [reflexivity|]. split; [exact Ly|].
    assert (SH : forall t y, nth_error ys t = Some y -> shp y = s /\ forall i, valid s i -> nth_error (outs f s0 (map (fun x => xat x i) h)) t = Some (elt y i)).
    { intros t y Hy. destruct (P t y Hy) as (sh & E1 & Y & Q).
      destruct (hshape_const xshape s Hs (firstn (S t) h) (forall_firstn _ _ _ H)) as [_ E2]. rewrite (E2 ltac:(discriminate)) in E1. injection E1 as <-.
      split; [exact Y|exact Q]. }
    split.
    + apply Forall_forall. intros y Hy. apply In_nth_error in Hy. destruct Hy as [t Ht]. exact (proj1 (SH t y Ht)).
    + intros i Vi. apply nth_ext with (d := 0) (d' := 0); [rewrite tlane_length, outs_length, map_length; exact Ly|].
      intros t Ht. rewrite tlane_length in Ht. destruct (nth_error ys t) as [y|] eqn:Ey; [|apply nth_error_None in Ey; lia].
      pose proof (proj2 (SH t y Ey) i Vi) as Q. rewrite (nth_error_nth _ _ 0 Q). unfold tlane. rewrite nth_indep with (d' := elt (mkT [] (fun _ => 0)) i) by (rewrite map_length; exact Ht).
      rewrite (map_nth (fun x => elt x i)). rewrite (nth_error_nth _ _ _ Ey). reflexivity.
Qed.

Lemma tlane_later {St} (f : St -> Z -> St * Z) s0 os i a b : tlane os i = outs f s0 (a ++ b) -> tlane (skipn (length a) os) i = outs f (final f s0 a) b.
Proof.
  intros E. unfold tlane. rewrite <- skipn_map. fold (tlane os i). rewrite E, outs_app, skipn_app, outs_length, Nat.sub_diag.
  rewrite skipn_all2 by (rewrite outs_length; lia). reflexivity.
Qed.

(** FSUReLU. *)
Lemma pos_part_close a b : (Qabs (pos_part a - pos_part b) <= Qabs (a - b))%Q /\ (Qabs (pos_part a) <= Qabs a)%Q.
Proof.
  unfold pos_part.
  assert (Z : forall x, Qle_bool 0 x = false -> (x < 0)%Q) by (intros x E; destruct (Qlt_le_dec x 0) as [X|X]; [exact X|apply Qle_bool_iff in X; congruence]).
  destruct (Qle_bool 0 a) eqn:A, (Qle_bool 0 b) eqn:B; try apply Qle_bool_iff in A; try apply Qle_bool_iff in B; try apply Z in A; try apply Z in B;
    (split; [|try apply Qle_refl; apply Qabs_nonneg]); try apply Qle_refl; try apply Qabs_nonneg;
    apply qabs_le; pose proof (Qle_Qabs (a - b)) as X; pose proof (Qle_Qabs (- (a - b))) as Y; rewrite Qabs_opp in Y; split; lra.
Qed.
Lemma follows_relu d s used q K : s <> [] -> (0 <= K)%Q -> (4 * K < inject_Z (p2 d))%Q ->
  follows Bipolar (m_relu d) s s used q K q (relu_slack used d K) (fun v i => pos_part (v i)).
Proof.
  intros Hs HK Hd h1 h2 v H1 H2 Hu Hv.
  assert (HH : forall h, hist_ok s h -> Forall (fun x => shape1 x = Some s) h).
  { intros h Hh. eapply Forall_impl; [|exact Hh]. intros x [E _]. unfold shape1. rewrite E. reflexivity. }
  pose proof (lanewise_lanes shape1 at1 (fsurelu_t d) (fsurelu_t_init d) (fsurelu_step d) (fsurelu_init d) s (h1 ++ h2) Hs (relu_lanes d _) (HH _ (hist_app _ _ _ H1 H2)))
    as (os & R & Lo & So & Po). cbn [m_relu m_step m_init]. rewrite app_length in Lo.
  exists (firstn (length h1) os), (skipn (length h1) os). rewrite firstn_skipn. split; [exact R|].
  split; [rewrite firstn_length; lia|]. split; [rewrite skipn_length; lia|].
  assert (At : forall h i, hist_ok s h -> valid s i -> map (fun x => at1 x i) h = tlane h i).
  { intros h i Hh Vi. apply map_ext_in. intros x Hx. unfold hist_ok in Hh. rewrite Forall_forall in Hh. destruct (Hh x Hx) as [E _]. unfold at1. rewrite E, bidx_valid by exact Vi. reflexivity. }
  assert (Ho : hist_ok s os).
  { unfold hist_ok. apply Forall_forall. intros y Hy. rewrite Forall_forall in So. split; [exact (So y Hy)|]. intros i Vi.
    pose proof (Po i Vi) as E. rewrite (At _ i (hist_app _ _ _ H1 H2) Vi) in E.
    assert (B : bits (tlane os i)) by (rewrite E; apply relu_bits; apply (tlane_bits s); [apply hist_app; assumption|exact Vi]).
    unfold bits in B. rewrite Forall_forall in B. apply B. apply in_map_iff. exists y. split; [reflexivity|exact Hy]. }
  split; [apply forall_firstn; exact Ho|]. split; [rewrite <- (firstn_skipn (length h1) os) in Ho; apply Forall_app in Ho; exact (proj2 Ho)|].
  intros i Vi. destruct (Hv i Vi) as [A (v' & Q1 & Q2 & P)]. destruct (pos_part_close v' (v i)) as [C1 C2]. destruct (pos_part_close (v i) 0) as [_ C3].
  split; [eapply Qle_trans; eassumption|]. exists (pos_part v'). split; [eapply Qle_trans; eassumption|]. split; [eapply Qle_trans; eassumption|].
  assert (E : tlane (skipn (length h1) os) i = outs (fsurelu_step d) (final (fsurelu_step d) (fsurelu_init d) (tlane h1 i)) (tlane h2 i)).
  { pose proof (Po i Vi) as E. rewrite (At _ i (hist_app _ _ _ H1 H2) Vi), tlane_app in E. rewrite <- (tlane_length h1 i) at 1. apply tlane_later. exact E. }
  rewrite E. apply relu_progress; try assumption.
  - apply (tlane_bits s); assumption.
  - apply (tlane_bits s); assumption.
  - intros X. rewrite (Hu X). reflexivity.
Qed.

(** FSUHardsigmoid. *)
Lemma progress_near m K v xs t : bits xs -> progresses m 0 K v xs -> (1 <= t <= length xs)%nat -> near K (to_prob m v) (firstn t xs).
Proof.
  intros Hb P Ht. pose proof (forall_firstn _ t _ Hb) as Hf.
  pose proof (value_near m v _ (firstn t xs) Hf (firstn_nonnil t xs Ht) (P t Ht)) as [_ N]. split; [exact Hf|].
  rewrite zlen_firstn in * by lia. set (T := inject_Z (Z.of_nat t)) in *. assert (TP : (0 < T)%Q) by (apply inj_pos; lia). pose proof (span_pos m) as SP.
  assert (E : (T * ((0 + span m * K / T) / span m) == K)%Q) by (field; lra). rewrite E in N. exact N.
Qed.
Lemma add_bit c : forall xs s, bits (outs (fsuadd_step c) s xs).
Proof.
  induction xs as [|x xs IH]; intros s; [constructor|]. rewrite outs_cons. constructor; [|apply IH].
  unfold fsuadd_step, fsuadd_call, acc_step. cbn [snd]. match goal with |- bit ?g => match g with context [qge ?a ?b] => destruct (qge a b) end end; [right|left]; reflexivity.
Qed.
Lemma hardsigmoid_progress m depth K v pre xs : 4 <= depth -> bits pre -> bits xs -> progresses m 0 K v xs ->
  progresses m 0 (K / 2 + 1) ((v + 1) / 2) (outs (fsuhardsigmoid_step m depth) (final (fsuhardsigmoid_step m depth) (fsuhardsigmoid_init m depth) pre) xs).
Proof.
  intros Hd Hp Hx P t Ht. rewrite outs_length in Ht. rewrite outs_firstn. set (os := outs _ _ (firstn t xs)).
  assert (Lo : zlen os = Z.of_nat t) by (unfold os, zlen; rewrite outs_length, firstn_length; f_equal; lia).
  pose proof (progress_near m K v xs t Hx P Ht) as [Hf N]. rewrite zlen_firstn in N by lia.
  assert (O : ones os = (zlen pre + Z.of_nat t + (ones pre + ones (firstn t xs))) / 2 - (zlen pre + ones pre) / 2).
  { pose proof (hardsigmoid_exact m depth (pre ++ firstn t xs) Hd ltac:(apply Forall_app; split; assumption)) as E1.
    pose proof (hardsigmoid_exact m depth pre Hd Hp) as E0. rewrite outs_app, ones_app, E0, ones_app, zlen_app, zlen_firstn in E1 by lia. fold os in E1. lia. }
  assert (Bo : bits os) by (unfold os; rewrite hardsig_outs; apply add_bit).
  assert (Ne : os <> []) by (intros E; rewrite E in Lo; change (zlen (@nil Z)) with 0 in Lo; lia).
  set (u := to_prob m v) in *. set (n := ones (firstn t xs)) in *.
  assert (N2 : near (K / 2 + 1) ((u + 1) / 2) os).
  { split; [exact Bo|]. rewrite Lo. set (T := inject_Z (Z.of_nat t)) in *.
    assert (B : - 2 <= 2 * ones os - (n + Z.of_nat t) <= 2).
    { rewrite O. set (a := zlen pre + Z.of_nat t + (ones pre + n)). set (b := zlen pre + ones pre). assert (a = b + (n + Z.of_nat t)) by (unfold a, b; ring).
      clearbody a b. pose proof (Z.div_mod a 2 ltac:(lia)). pose proof (Z.mod_pos_bound a 2 ltac:(lia)). pose proof (Z.div_mod b 2 ltac:(lia)). pose proof (Z.mod_pos_bound b 2 ltac:(lia)). lia. }
    assert (BQ : (- (2) <= 2 * inject_Z (ones os) - (inject_Z n + T) <= 2)%Q).
    { unfold T. change 2%Q with (inject_Z 2). rewrite <- inject_Z_opp, <- inject_Z_plus, <- inject_Z_mult. unfold Qminus. rewrite <- inject_Z_opp, <- inject_Z_plus. rewrite <- !Zle_Qle. lia. }
    apply qabs_le in N. apply qabs_le. set (o := inject_Z (ones os)) in *. set (nn := inject_Z n) in *. clearbody o nn T u.
    assert (H1 : (K / 2 == K * (1 # 2))%Q) by field. assert (H2 : (T * ((u + 1) / 2) == (T * u + T) * (1 # 2))%Q) by field. rewrite H1, H2. split; lra. }
  pose proof (near_value m _ _ os N2 Ne) as V. rewrite Lo in V.
  assert (E : (of_prob m ((u + 1) / 2) == (v + 1) / 2)%Q) by (unfold of_prob, u, to_prob; destruct m; field).
  rewrite E in V. eapply Qle_trans; [exact V|]. rewrite Qplus_0_l. apply Qle_refl.
Qed.
Definition stacked (x : tensor Z) : tensor Z := mkT (shp x ++ [2%nat]) (fun i => if (last i 0 =? 0)%nat then elt x (removelast i) else 1).
Lemma hs_run c : forall h st, run_r (fsuhardsigmoid_t c) st h = run_r (fsuadd_t c 0) st (map stacked h).
Proof.
  induction h as [|x h IH]; intros st; [reflexivity|]. cbn [map run_r].
  assert (E : fsuhardsigmoid_t c st x = fsuadd_t c 0 st (stacked x)).
  { unfold fsuhardsigmoid_t, tstack2. cbn [tlike shp]. rewrite shape_eqb_refl. reflexivity. }
  rewrite E. destruct (fsuadd_t c 0 st (stacked x)) as [[s1 o]|e]; [|reflexivity]. rewrite IH. reflexivity.
Qed.
Lemma valid_length s : forall i, valid s i -> length i = length s.
Proof. induction s as [|d s IH]; intros i V; destruct i as [|j i]; try reflexivity; try destruct V as [Vj V]; try destruct V. cbn [length]. f_equal. apply IH. exact V. Qed.
Lemma stacked_shape x : addshape 0 (stacked x) = Some (shp x).
Proof.
  unfold addshape, stacked. cbn [shp]. rewrite app_length. cbn [length].
  assert (L : (0 <? length (shp x) + 1)%nat = true) by (apply Nat.ltb_lt; lia). rewrite L. f_equal. unfold remove_at.
  replace (length (shp x) + 1 - 1 - 0)%nat with (length (shp x)) by lia. rewrite firstn_app, Nat.sub_diag, firstn_all, firstn_O, app_nil_r.
  rewrite skipn_all2 by (rewrite app_length; cbn [length]; lia). apply app_nil_r.
Qed.
Lemma stacked_at x i : valid (shp x) i -> addat 0 (stacked x) i = [elt x i; 1].
Proof.
  intros V. unfold addat, stacked. cbn [shp elt]. rewrite app_length. cbn [length].
  replace (length (shp x) + 1 - 1 - 0)%nat with (length (shp x)) by lia.
  assert (R : remove_at (length (shp x)) (shp x ++ [2%nat]) = shp x).
  { unfold remove_at. rewrite firstn_app, Nat.sub_diag, firstn_all, firstn_O, app_nil_r. rewrite skipn_all2 by (rewrite app_length; cbn [length]; lia). apply app_nil_r. }
  rewrite R, bidx_valid by exact V. rewrite app_nth2, Nat.sub_diag by lia. cbn [nth seq map].
  assert (I : forall n, insert_at (length (shp x)) n i = i ++ [n]).
  { intros n. unfold insert_at. rewrite <- (valid_length _ _ V), firstn_all, skipn_all. reflexivity. }
  rewrite !I, !last_last, !removelast_last. reflexivity.
Qed.
Lemma follows_hardsigmoid m depth s used q K : s <> [] -> 4 <= depth ->
  follows m (m_hardsigmoid (hardsigmoid_cfg m depth)) s s used q K (q / 2) (K / 2 + 1) (fun v i => (v i + 1) / 2)%Q.
Proof.
  intros Hs Hd h1 h2 v H1 H2 Hu Hv. pose proof (hist_app _ _ _ H1 H2) as H12.
  assert (HH : Forall (fun x => addshape 0 x = Some s) (map stacked (h1 ++ h2))).
  { apply Forall_map. eapply Forall_impl; [|exact H12]. intros x [E _]. cbn beta. rewrite stacked_shape, E. reflexivity. }
  assert (HL : Forall (fun x : tensor Z => (0 < length (shp x))%nat) (map stacked (h1 ++ h2))).
  { apply Forall_map. apply Forall_forall. intros x _. unfold stacked. cbn [shp]. rewrite app_length. cbn [length]. lia. }
  set (c := hardsigmoid_cfg m depth).
  pose proof (lanewise_lanes (addshape 0) (addat 0) (fsuadd_t c 0) (fsuadd_t_init c) (fsuadd_step c) (fsuadd_init c) s (map stacked (h1 ++ h2)) Hs
    (add_lanes c 0 _ HL) HH) as (os & R & Lo & So & Po).
  cbn [m_hardsigmoid m_step m_init]. rewrite hs_run. rewrite map_length, app_length in Lo.
  exists (firstn (length h1) os), (skipn (length h1) os). rewrite firstn_skipn. split; [exact R|].
  split; [rewrite firstn_length; lia|]. split; [rewrite skipn_length; lia|].
  assert (Po2 : forall i, valid s i -> tlane os i = outs (fsuhardsigmoid_step m depth) (fsuhardsigmoid_init m depth) (tlane h1 i ++ tlane h2 i)).
  { intros i Vi. rewrite (Po i Vi), hardsig_outs. unfold fsuhardsigmoid_init. fold c. f_equal. rewrite <- tlane_app. unfold tlane. rewrite !map_map. apply map_ext_in.
    intros x Hx. unfold hist_ok in H12. rewrite Forall_forall in H12. destruct (H12 x Hx) as [E _]. apply stacked_at. rewrite E. exact Vi. }
  assert (Ho : hist_ok s os).
  { unfold hist_ok. apply Forall_forall. intros y Hy. rewrite Forall_forall in So. split; [exact (So y Hy)|]. intros i Vi.
    pose proof (Po i Vi) as E. assert (B : bits (tlane os i)) by (rewrite E; apply add_bit).
    unfold bits in B. rewrite Forall_forall in B. apply B. apply in_map_iff. exists y. split; [reflexivity|exact Hy]. }
  split; [apply forall_firstn; exact Ho|]. split; [rewrite <- (firstn_skipn (length h1) os) in Ho; apply Forall_app in Ho; exact (proj2 Ho)|].
  intros i Vi. destruct (Hv i Vi) as [A (v' & Q1 & Q2 & P)]. apply qabs_le in A, Q1, Q2.
  assert (HF : forall a, ((a + 1) / 2 == (a + 1) * (1 # 2))%Q) by (intros a; field). assert (HF2 : (q / 2 == q * (1 # 2))%Q) by field.
  split; [apply qabs_le; rewrite HF; split; lra|]. exists ((v' + 1) / 2)%Q. split; [apply qabs_le; rewrite !HF, HF2; split; lra|].
  split; [apply qabs_le; rewrite HF; split; lra|].
  rewrite <- (tlane_length h1 i) at 1. rewrite (tlane_later _ _ _ _ _ _ (Po2 i Vi)).
  apply hardsigmoid_progress; [exact Hd|apply (tlane_bits s); assumption|apply (tlane_bits s); assumption|exact P].
Qed.

(** torch.flatten. *)
Lemma follows_flatten m W H C N used q K : (1 <= W)%nat -> (1 <= H)%nat ->
  follows m m_flatten [W; H; C; N] [(C * (H * W))%nat; N] used q K q K
    (fun v i => match i with [f; n] => v [f mod W; (f / W) mod H; f / (H * W); n]%nat | _ => 0%Q end).
Proof.
  intros HW HH h1 h2 v H1 H2 Hu Hv.
  set (g := fun x : tensor Z => mkT [(C * (H * W))%nat; N] (fun i => match i with [f; n] => elt x [f mod W; (f / W) mod H; f / (H * W); n]%nat | _ => 0 end)).
  assert (RUN : forall h, hist_ok [W; H; C; N] h -> outputs (run_r (m_step m_flatten) (m_init m_flatten) h) = Some (map g h)).
  { cbn [m_flatten m_step m_init]. intros h Hh. induction Hh as [|x h [E _] Hh IH]; [reflexivity|]. cbn [run_r]. unfold flatten at 1. rewrite E. cbn [bind].
    match goal with |- outputs (match ?r with _ => _ end) = _ => destruct r as [[s' o]|e] end; [|discriminate]. cbn [outputs map] in *. injection IH as ->. reflexivity. }
  assert (V : forall i, valid [(C * (H * W))%nat; N] i -> exists f n, i = [f; n] /\ valid [W; H; C; N] [f mod W; (f / W) mod H; f / (H * W); n]%nat).
  { intros i Vi. destruct i as [|f [|n [|z i]]]; try (cbn in Vi; tauto). exists f, n. split; [reflexivity|]. cbn in Vi. destruct Vi as (Vf & Vn & _).
    cbn [valid]. repeat split; try exact Vn; try (apply Nat.mod_upper_bound; lia). apply Nat.div_lt_upper_bound; nia. }
  assert (Ho : forall h, hist_ok [W; H; C; N] h -> hist_ok [(C * (H * W))%nat; N] (map g h)).
  { intros h Hh. apply Forall_map. eapply Forall_impl; [|exact Hh]. intros x [E B]. split; [reflexivity|]. intros i Vi. destruct (V i Vi) as (f & n & -> & V').
    cbn [g elt]. apply B. exact V'. }
  exists (map g h1), (map g h2). split; [rewrite <- map_app; apply RUN; apply hist_app; assumption|]. split; [apply map_length|]. split; [apply map_length|].
  split; [apply Ho; exact H1|]. split; [apply Ho; exact H2|].
  intros i Vi. destruct (V i Vi) as (f & n & -> & V'). destruct (Hv _ V') as [A T]. split; [exact A|].
  assert (E : tlane (map g h2) [f; n] = tlane h2 [f mod W; (f / W) mod H; f / (H * W); n]%nat) by (unfold tlane; rewrite map_map; reflexivity). rewrite E. exact T.
Qed.

(** FSULinear. *)
Definition rows (n B : nat) (x : tensor Z) : list (list Z) := map (fun b => map (fun i => elt x [i; b]) (seq 0 n)) (seq 0 B).
Lemma nth_map_seq {A} (f : nat -> A) d n i : (i < n)%nat -> nth i (map f (seq 0 n)) d = f i.
Proof. intros H. rewrite nth_indep with (d' := f 0%nat) by (rewrite map_length, seq_length; lia). rewrite (map_nth f), seq_nth by lia. reflexivity. Qed.
Lemma rows_entry n B x b i : (b < B)%nat -> (i < n)%nat -> entry2 (rows n B x) b i = elt x [i; b].
Proof. intros Hb Hi. unfold entry2, rows. rewrite nth_map_seq by exact Hb. exact (nth_map_seq (fun i => elt x [i; b]) 0 n i Hi). Qed.
Lemma rows_ok n B h : hist_ok [n; B] h -> Forall (batch_ok B n) (map (rows n B) h).
Proof.
  intros H. apply Forall_map. eapply Forall_impl; [|exact H]. intros x [E Bx]. split; [unfold rows; rewrite map_length, seq_length; reflexivity|].
  apply Forall_map, Forall_forall. intros b Hb. apply in_seq in Hb. split; [rewrite map_length, seq_length; reflexivity|].
  apply Forall_map, Forall_forall. intros i Hi. apply in_seq in Hi. apply Bx. cbn [valid]. lia.
Qed.
Lemma rows_lane n B h b i : (b < B)%nat -> (i < n)%nat -> lane (map (rows n B) h) b i = tlane h [i; b].
Proof. intros Hb Hi. unfold lane, tlane. rewrite map_map. apply map_ext. intros x. apply rows_entry; assumption. Qed.
Lemma of_rows_ok B o os : (1 <= B)%nat -> Forall (batch_ok B o) os -> hist_ok [o; B] (map of_rows os).
Proof.
  intros HB H. apply Forall_map. eapply Forall_impl; [|exact H]. intros y [L F]. cbn beta. split.
  - unfold of_rows. cbn [shp]. rewrite L. destruct y as [|r y]; [cbn in L; lia|]. inversion F as [|? ? [Lr _]]; subst. cbn [hd]. reflexivity.
  - intros i Vi. destruct i as [|i [|b [|z l]]]; try (cbn in Vi; tauto). cbn in Vi. destruct Vi as (Vi & Vb & _). cbn [of_rows elt].
    rewrite Forall_forall in F. destruct (F (nth b y []) ltac:(apply nth_In; lia)) as [Lr Br]. unfold bits in Br. rewrite Forall_forall in Br. apply Br. apply nth_In. lia.
Qed.
Lemma of_rows_lane os b o : tlane (map of_rows os) [o; b] = lane os b o.
Proof. unfold tlane, lane. rewrite map_map. reflexivity. Qed.

Lemma follows_linear ext w m_name r_name m L ca B used q K : builds ext w m_name r_name L ca ->
  names_mode m_name m -> named r_name ["sobol"%string; "rc"%string] -> (1 <= w <= 30)%nat -> layer_ok m ext L -> (1 <= B)%nat -> (0 <= q)%Q -> (0 <= K)%Q ->
  follows m (m_linear ca) [ly_in L; B] [ly_out L; B] used q K (q + grid_step m w / 2) (K + layer_slack m w used + 1)
    (fun v i => match i with [o; b] => real_layer L (fun k => v [k; b]) o | _ => 0%Q end).
Proof.
  destruct ca as [c a]. intros HB Hm Hr Hw HL HBB Hq HK h1 h2 v H1 H2 Hu Hv. set (n := ly_in L) in *.
  destruct (pick 0%Q [n; B] (fun i v' => (Qabs (v' - v i) <= q)%Q /\ (Qabs v' <= 1)%Q /\ progresses m 0 K v' (tlane h2 i))) as [v' Hv'].
  { intros i Vi. exact (proj2 (Hv i Vi)). }
  assert (VAL : forall b i, (b < B)%nat -> (i < n)%nat -> valid [n; B] [i; b]) by (intros b i Hb Hi; cbn [valid]; lia).
  assert (Hu' : used = false -> map (rows n B) h1 = []) by (intros X; rewrite (Hu X); reflexivity).
  destruct (linear_core _ _ _ _ m L c a HB Hm Hr Hw HL B used (map (rows n B) h1) (map (rows n B) h2) (fun b i => v' [i; b]) 0 K HBB (rows_ok _ _ _ H1) (rows_ok _ _ _ H2) Hu'
    ltac:(discriminate) HK) as (o1 & o2 & R & L1 & L2 & F1 & F2 & P).
  { intros b i Hb Hi. rewrite rows_lane by assumption. destruct (Hv' _ (VAL b i Hb Hi)) as (_ & A & Pr). split; [exact A|exact Pr]. }
  exists (map of_rows o1), (map of_rows o2).
  split.
  { rewrite <- map_app. cbn [m_linear m_step m_init fst snd]. apply wrap_run with (xs := map (rows n B) (h1 ++ h2)).
    - rewrite map_map. apply map_ext_in. intros x Hx. pose proof (hist_app _ _ _ H1 H2) as H12. unfold hist_ok in H12. rewrite Forall_forall in H12. destruct (H12 x Hx) as [E _].
      unfold to_rows. rewrite E. reflexivity.
    - rewrite map_app. exact R. }
  rewrite !map_length in *. split; [exact L1|]. split; [exact L2|]. split; [apply of_rows_ok; assumption|]. split; [apply of_rows_ok; assumption|].
  intros i Vi. destruct i as [|o [|b [|z l]]]; try (cbn in Vi; tauto). cbn in Vi. destruct Vi as (Vo & Vb & _).
  destruct (layer_close _ _ _ _ m L c a HB Hm Hr HL (fun k => v [k; b]) (fun k => v' [k; b]) q o Vo Hq) as (C1 & C2 & C3).
  { intros k Hk. destruct (Hv _ (VAL b k Vb Hk)) as [A _]. destruct (Hv' _ (VAL b k Vb Hk)) as (B1 & B2 & _). auto. }
  split; [exact C1|]. exists (real_layer (quantised m w L) (fun k => v' [k; b]) o). split; [exact C3|]. split; [exact C2|].
  rewrite of_rows_lane. exact (P b o Vb Vo).
Qed.

(** ** FSUConv2d, fresh or used *)
Lemma lane4_app h1 h2 n c y x : lane4 (h1 ++ h2) n c y x = lane4 h1 n c y x ++ lane4 h2 n c y x.
Proof. unfold lane4. apply map_app. Qed.
Lemma lane4_bits N C H W h n c y x : Forall (tensor_ok bit N C H W) h -> (n < N)%nat -> (c < C)%nat -> (y < H)%nat -> (x < W)%nat -> bits (lane4 h n c y x).
Proof.
  intros Hh Hn Hc Hy Hx. apply Forall_forall. intros z Hz. apply in_map_iff in Hz. destruct Hz as (t & <- & Ht). rewrite Forall_forall in Hh.
  apply (entry4_in bit 0 N C H W); auto.
Qed.
Lemma alternating_app a b : alternating (a + b) = alternating a ++ map (fun x => Z.of_nat x mod 2) (seq a b).
Proof. unfold alternating. rewrite seq_app, map_app. reflexivity. Qed.
Lemma border_window m a b : (1 <= b)%nat -> exists pre xs,
  (match m with Unipolar => repeat 0 a | Bipolar => alternating a end) = pre /\
  (match m with Unipolar => repeat 0 (a + b) | Bipolar => alternating (a + b) end) = pre ++ xs /\ bits pre /\ length pre = a /\ bits xs /\ length xs = b /\
  (Qabs (value m xs - 0) <= 0 + span m * (1 # 2) / inject_Z (Z.of_nat b))%Q.
Proof.
  intros Hb. assert (BQ : (0 < inject_Z (Z.of_nat b))%Q) by (apply inj_pos; lia). destruct m.
  - exists (repeat 0 a), (repeat 0 b). split; [reflexivity|]. split; [apply repeat_app|].
    assert (BR : forall n, bits (repeat 0 n)) by (intros n; apply Forall_forall; intros z Hz; apply repeat_spec in Hz; left; exact Hz).
    split; [apply BR|]. split; [apply repeat_length|]. split; [apply BR|]. split; [apply repeat_length|].
    assert (E : ones (repeat 0 b) = 0) by (clear; induction b as [|T IH]; [reflexivity|]; cbn [repeat]; unfold ones in *; cbn [countb]; rewrite IH; reflexivity).
    unfold value, zlen. rewrite E, repeat_length. set (T := inject_Z (Z.of_nat b)) in *. clearbody T. change (inject_Z 0) with 0%Q.
    assert (E1 : (0 / T - 0 == 0)%Q) by (field; lra). rewrite E1. change (Qabs 0) with 0%Q. unfold span. rewrite Qplus_0_l.
    apply Qle_shift_div_l; lra.
  - set (xs := map (fun x => Z.of_nat x mod 2) (seq a b)). exists (alternating a), xs. split; [reflexivity|]. split; [apply alternating_app|].
    split; [apply alternating_bits|]. split; [unfold alternating; rewrite map_length, seq_length; reflexivity|].
    assert (BX : bits xs).
    { apply Forall_map, Forall_forall. intros z _. pose proof (Z.mod_pos_bound (Z.of_nat z) 2 ltac:(lia)). unfold bit. lia. }
    split; [exact BX|]. assert (LX : length xs = b) by (unfold xs; rewrite map_length, seq_length; reflexivity). split; [exact LX|].
    pose proof (alternating_walk (a + b)) as W1. pose proof (alternating_walk a) as W0. rewrite alternating_app in W1. fold xs in W1.
    assert (WA : walk (alternating a ++ xs) = walk (alternating a) + walk xs) by (unfold walk; rewrite ones_app, zeros_app; lia).
    rewrite WA, W0 in W1. pose proof (Z.mod_pos_bound (Z.of_nat (a + b)) 2 ltac:(lia)). pose proof (Z.mod_pos_bound (Z.of_nat a) 2 ltac:(lia)).
    assert (B : -1 <= walk xs <= 1) by lia. unfold value, zlen. rewrite LX. set (T := inject_Z (Z.of_nat b)) in *.
    assert (B1 : (inject_Z (-1) <= inject_Z (walk xs) <= inject_Z 1)%Q) by (rewrite <- !Zle_Qle; lia). change (inject_Z (-1)) with (-1)%Q in B1. change (inject_Z 1) with 1%Q in B1.
    set (z := inject_Z (walk xs)) in *. clearbody z T. unfold span. apply qabs_le.
    assert (E1 : ((z / T - 0) * T == z)%Q) by (field; lra). assert (E2 : ((0 + 2 * (1 # 2) / T) * T == 1)%Q) by (field; lra).
    split; apply (Qmult_le_r _ _ T BQ); rewrite E1; [setoid_replace (- (0 + 2 * (1 # 2) / T) * T)%Q with (- ((0 + 2 * (1 # 2) / T) * T))%Q by ring|]; rewrite E2; lra.
Qed.

(** The layer with the weights and biases on the grid. *)
Definition cquantised (m : mode) (w : nat) (L : clayer) : clayer :=
  let g := fun y => grid_value m w (bingen m w y) in
  {| cl_in := cl_in L; cl_out := cl_out L; cl_kernel := cl_kernel L; cl_stride := cl_stride L; cl_dil := cl_dil L; cl_pad := cl_pad L; cl_bias := cl_bias L;
     cl_w := map (map (map (map g))) (cl_w L); cl_b := option_map (map g) (cl_b L); cl_dim := cl_dim L; cl_depth := cl_depth L |}.
Lemma entry4_map {A B} (g : A -> B) P N C H W t n c y x d d' : tensor_ok P N C H W t -> (n < N)%nat -> (c < C)%nat -> (y < H)%nat -> (x < W)%nat ->
  entry4 d' (map (map (map (map g))) t) n c y x = g (entry4 d t n c y x).
Proof.
  intros [L F] Hn Hc Hy Hx. rewrite Forall_forall in F. destruct (F (nth n t []) ltac:(apply nth_In; lia)) as [LC FC].
  rewrite Forall_forall in FC. destruct (FC (nth c (nth n t []) []) ltac:(apply nth_In; lia)) as [LH FH].
  rewrite Forall_forall in FH. destruct (FH (nth y (nth c (nth n t []) []) []) ltac:(apply nth_In; lia)) as [LW FW].
  unfold entry4. rewrite (nth_indep (map (map (map (map g))) t) [] (map (map (map g)) [])) by (rewrite map_length; lia). rewrite map_nth.
  rewrite (nth_indep (map (map (map g)) (nth n t [])) [] (map (map g) [])) by (rewrite map_length; lia). rewrite map_nth.
  rewrite (nth_indep (map (map g) (nth c (nth n t []) [])) [] (map g [])) by (rewrite map_length; lia). rewrite map_nth.
  rewrite (nth_indep _ d' (g d)) by (rewrite map_length; lia). apply map_nth.
Qed.

Theorem conv_core : forall ext w m_name r_name m L c a, cbuilds ext w m_name r_name L (c, a) ->
  names_mode m_name m -> named r_name ["sobol"%string; "rc"%string] -> (1 <= w <= 30)%nat -> clayer_ok m ext L ->
  forall N H W ho wo (used : bool) h1 h2 (X : nat -> nat -> nat -> nat -> Q) K, conv_sizes (cl_kernel L) (cl_stride L) (cl_dil L) (cl_pad L) (cl_in L) H W ho wo -> (1 <= N)%nat ->
  Forall (tensor_ok bit N (cl_in L) H W) h1 -> Forall (tensor_ok bit N (cl_in L) H W) h2 -> (used = false -> h1 = []) -> ((1 # 2) <= K)%Q ->
  (forall n k y x, (n < N)%nat -> (k < cl_in L)%nat -> (y < H)%nat -> (x < W)%nat -> (Qabs (X n k y x) <= 1)%Q /\ progresses m 0 K (X n k y x) (lane4 h2 n k y x)) ->
  exists os1 os2, outputs (run_r (fconv_step c a) (fconv_init c) (no_args4 (h1 ++ h2))) = Some (os1 ++ os2) /\
  length os1 = length h1 /\ length os2 = length h2 /\ Forall (tensor_ok bit N (cl_out L) ho wo) os1 /\ Forall (tensor_ok bit N (cl_out L) ho wo) os2 /\
  forall n o y x, (n < N)%nat -> (o < cl_out L)%nat -> (y < ho)%nat -> (x < wo)%nat ->
    progresses m 0 (K + layer_slack m w used + 1) (real_conv (cquantised m w L) H W (X n) o y x) (lane4 os2 n o y x).
Proof.
  intros ext w mn rn m L c a E Hm Hr Hw (HV & Hwe & Hbe & Hd) N H W ho wo used h1 h2 X K Hsz HN Hh1 Hh2 Hu HK HX.
  unfold cbuilds in E. unfold cl_entries in Hd. unfold real_conv, cl_entries, pixel, cquantised. cbn [cl_in cl_out cl_kernel cl_stride cl_dil cl_pad cl_bias cl_w cl_b].
  set (C := cl_in L) in *. set (no := cl_out L) in *. set (kernel := cl_kernel L) in *. set (stride := cl_stride L) in *. set (dil := cl_dil L) in *. set (p := cl_pad L) in *.
  set (bias := cl_bias L) in *. set (we := cl_w L) in *. set (be := cl_b L) in *. set (dimr := cl_dim L) in *. set (depth := cl_depth L) in *.
  clearbody C no kernel stride dil p bias we be dimr depth.
  destruct (fconv_parts _ _ _ _ _ _ _ _ _ _ _ _ _ _ _ _ _ _ _ _ _ E Hm Hr) as (-> & Sh & Em & Et & Er & Ei & Eo & EC & EK & ES & ED & EP & Ew & Hbl & Eb). clear E.
  destruct Hsz as (Z1 & Z2 & Z3 & Z4 & Z5 & Z6 & Z7 & Z8 & Z9 & Z10).
  assert (GG : conv_geom c p H W ho wo).
  { unfold conv_geom. rewrite EC, EK, ES, ED, EP, Ei. auto 20. }
  assert (EE : flin_entry (cv_pc c) = Z.of_nat (taps C kernel) + b2z bias).
  { unfold flin_entry, taps. rewrite Ei, Eb. destruct bias; [|reflexivity]. destruct (Hbl eq_refl) as (b & -> & _). reflexivity. }
  assert (E0 : 0 < flin_entry (cv_pc c)) by (rewrite EE; unfold taps; destruct bias; cbn [b2z]; nia).
  rewrite <- EE in Hd.
  pose proof (rng_sobol_perm ext w dimr (proj2 Hw) HV) as HP.
  assert (RO : rng_ok (cv_pc c)).
  { unfold rng_ok. rewrite Er, (Permutation_length HP), len_zrange. assert (2 ^ w <> 0)%nat by (apply Nat.pow_nonzero; lia). lia. }
  rewrite <- EC in Hh1, Hh2.
  pose proof (fun h' Hh' => fconv_rate c depth p N H W ho wo h' GG RO Et HN E0 Hd Hh') as GO.
  assert (Hh : Forall (tensor_ok bit N (cv_chan c) H W) (h1 ++ h2)) by (apply Forall_app; split; assumption).
  destruct (GO (h1 ++ h2) Hh) as (os & R & Lo & _). rewrite app_length in Lo.
  pose proof (conv_bits c depth p N H W ho wo _ GG RO Et HN E0 Hd Hh os R) as Fo. rewrite Eo in Fo.
  exists (firstn (length h1) os), (skipn (length h1) os). rewrite firstn_skipn. split; [exact R|].
  assert (L1 : length (firstn (length h1) os) = length h1) by (rewrite firstn_length; lia). split; [exact L1|].
  assert (L2 : length (skipn (length h1) os) = length h2) by (rewrite skipn_length; lia). split; [exact L2|].
  assert (Fo2 : Forall (tensor_ok bit N no ho wo) (skipn (length h1) os)) by (rewrite <- (firstn_skipn (length h1) os) in Fo; apply Forall_app in Fo; exact (proj2 Fo)).
  split; [apply forall_firstn; exact Fo|]. split; [exact Fo2|].
  set (os1 := firstn (length h1) os) in *. set (os2 := skipn (length h1) os) in *.
  intros n o y x Hn Ho Hy Hxx t Ht. unfold lane4 in Ht at 1. rewrite map_length, L2 in Ht. rewrite <- lane4_firstn.
  assert (Hht : Forall (tensor_ok bit N (cv_chan c) H W) (h1 ++ firstn t h2)) by (apply Forall_app; split; [exact Hh1|apply forall_firstn; exact Hh2]).
  destruct (GO h1 Hh1) as (o1 & R1 & Lo1 & Ones1).
  pose proof (run_r_firstn _ (length h1) _ _ _ R) as XX. unfold no_args4 in XX, R1. rewrite firstn_map, firstn_app, Nat.sub_diag, firstn_O, app_nil_r, firstn_all in XX.
  rewrite XX in R1. injection R1 as <-. clear XX. fold os1 in Lo1, Ones1.
  destruct (GO (h1 ++ firstn t h2) Hht) as (o2 & R2 & Lo2 & Ones2).
  pose proof (run_r_firstn _ (length h1 + t) _ _ _ R) as XX. unfold no_args4 in XX, R2. rewrite firstn_map, firstn_app_2 in XX.
  rewrite XX in R2. injection R2 as <-. clear XX.
  assert (Eos : firstn (length h1 + t) os = os1 ++ firstn t os2).
  { rewrite <- (firstn_skipn (length h1) os) at 1. fold os1 os2. rewrite <- L1 at 1. apply firstn_app_2. }
  rewrite Eos in Ones2. specialize (Ones1 n o y x Hn ltac:(rewrite Eo; exact Ho) Hy Hxx). specialize (Ones2 n o y x Hn ltac:(rewrite Eo; exact Ho) Hy Hxx).
  rewrite lane4_app, ones_app in Ones2.
  assert (Lt : length (firstn t h2) = t) by (rewrite firstn_length; lia).
  rewrite app_length, Lt in Ones2. rewrite Em, Er, EC, EK, Eb in Ones1, Ones2.
  assert (Bb : bias = true -> src_ok m (bias_entry be o)).
  { intros Ebias. destruct (Hbl Ebias) as (bl & -> & Lb). cbn [bias_entry src_opt] in *. rewrite Forall_forall in Hbe. apply Hbe. apply nth_In. lia. }
  set (kh := fst kernel) in *. set (kw := snd kernel) in *.
  set (yy := fun i : nat => Z.of_nat (y * fst stride + i * fst dil) - Z.of_nat p).
  set (xx := fun j : nat => Z.of_nat (x * snd stride + j * snd dil) - Z.of_nat p).
  set (ins := fun a : nat * nat * nat => (0 <=? yy (snd (fst a))) && (yy (snd (fst a)) <? Z.of_nat H) && (0 <=? xx (snd a)) && (xx (snd a) <? Z.of_nat W)).
  set (xv := fun a : nat * nat * nat => if ins a then X n (fst (fst a)) (Z.to_nat (yy (snd (fst a)))) (Z.to_nat (xx (snd a))) else 0%Q).
  set (g := fun y => grid_value m w (bingen m w y)) in *.
  assert (WIN : forall a, In a (triples C kh kw) -> exists pre xs,
    tap_stream c p H W h1 n y x (fst (fst a)) (snd (fst a)) (snd a) = pre /\
    tap_stream c p H W (h1 ++ firstn t h2) n y x (fst (fst a)) (snd (fst a)) (snd a) = pre ++ xs /\
    bits pre /\ length pre = length h1 /\ bits xs /\ length xs = t /\ (Qabs (value m xs - xv a) <= 0 + span m * K / inject_Z (Z.of_nat t))%Q /\ (Qabs (xv a) <= 1)%Q).
  { intros [[k i] j] Ha. apply triples_in in Ha. destruct Ha as (Hk & Hi & Hj). cbn [fst snd]. unfold xv. cbn [fst snd].
    destruct (ins (k, i, j)) eqn:Ins; unfold ins in Ins; cbn [fst snd] in Ins.
    - destruct (HX n k (Z.to_nat (yy i)) (Z.to_nat (xx j)) Hn Hk ltac:(lia) ltac:(lia)) as [A P].
      exists (lane4 h1 n k (Z.to_nat (yy i)) (Z.to_nat (xx j))), (lane4 (firstn t h2) n k (Z.to_nat (yy i)) (Z.to_nat (xx j))).
      pose proof (inside_stream c p N H W h1 n y x k i j) as IS1. pose proof (inside_stream c p N H W (h1 ++ firstn t h2) n y x k i j) as IS2. cbv zeta in IS1, IS2.
      rewrite ES, ED in IS1, IS2. fold (yy i) (xx j) in IS1, IS2. rewrite <- EC in Hk.
      split; [apply IS1; try assumption; lia|]. split; [rewrite IS2 by (try assumption; lia); apply lane4_app|].
      split; [apply (lane4_bits N (cv_chan c) H W); try assumption; lia|]. split; [unfold lane4; apply map_length|].
      split; [apply (lane4_bits N (cv_chan c) H W); try assumption; try lia; apply forall_firstn; exact Hh2|]. split; [unfold lane4; rewrite map_length; exact Lt|].
      split; [|exact A]. rewrite lane4_firstn. apply P. unfold lane4. rewrite map_length. exact Ht.
    - destruct (border_window m (length h1) t ltac:(lia)) as (pre & xs & B1 & B2 & B3 & B4 & B5 & B6 & B7).
      pose proof (border_stream c p H W h1 n y x k i j) as BS1. pose proof (border_stream c p H W (h1 ++ firstn t h2) n y x k i j) as BS2. cbv zeta in BS1, BS2.
      rewrite ES, ED in BS1, BS2. fold (yy i) (xx j) in BS1, BS2. rewrite Em in BS1, BS2. rewrite app_length, Lt in BS2.
      exists pre, xs. split; [rewrite BS1 by lia; exact B1|]. split; [rewrite BS2 by lia; exact B2|]. repeat (split; [assumption|]).
      split; [|change (Qabs 0) with 0%Q; discriminate].
      eapply Qle_trans; [exact B7|]. assert (TP : (0 < inject_Z (Z.of_nat t))%Q) by (apply inj_pos; lia). pose proof (span_pos m) as SP.
      set (T := inject_Z (Z.of_nat t)) in *. clearbody T. apply Qplus_le_r. apply Qle_shift_div_l; [exact TP|].
      assert (EQ : (span m * (1 # 2) / T * T == span m * (1 # 2))%Q) by (field; lra). rewrite EQ. nra. }
  set (pre := fun a : nat * nat * nat => tap_stream c p H W h1 n y x (fst (fst a)) (snd (fst a)) (snd a)).
  set (xs := fun a : nat * nat * nat => skipn (length h1) (tap_stream c p H W (h1 ++ firstn t h2) n y x (fst (fst a)) (snd (fst a)) (snd a))).
  assert (WIN2 : forall a, In a (triples C kh kw) ->
    tap_stream c p H W (h1 ++ firstn t h2) n y x (fst (fst a)) (snd (fst a)) (snd a) = pre a ++ xs a /\
    bits (pre a) /\ length (pre a) = length h1 /\ bits (xs a) /\ length (xs a) = t /\ (Qabs (value m (xs a) - xv a) <= 0 + span m * K / inject_Z (Z.of_nat t))%Q /\ (Qabs (xv a) <= 1)%Q).
  { intros a Ha. destruct (WIN a Ha) as (pr & sx & A1 & A2 & A3 & A4 & A5). unfold pre, xs. rewrite A1, A2.
    rewrite skipn_app, <- A4, Nat.sub_diag, skipn_all. cbn [app skipn]. split; [reflexivity|]. rewrite A4. auto. }
  pose proof (lane_window m w ext dimr (triples C kh kw) bias used pre xs xv
                (fun a => entry4 0%Q we o (fst (fst a)) (snd (fst a)) (snd a))
                (bias_entry be o) 0 K (length h1) t (lane4 (firstn t os2) n o y x) Hw HV) as G.
  rewrite triples_len in G. change (Z.of_nat (C * (kh * kw))) with (Z.of_nat (taps C kernel)) in G.
  assert (We : forall k i j, (k < C)%nat -> (i < kh)%nat -> (j < kw)%nat -> src_ok m (entry4 0%Q we o k i j)) by (intros k i j Hk Hi Hj; apply (entry4_in (src_ok m) 0%Q no C kh kw); assumption).
  assert (G2 : (Qabs (value m (lane4 (firstn t os2) n o y x) -
     (qsum (map (fun a => xv a * g (entry4 0 we o (fst (fst a)) (snd (fst a)) (snd a))) (triples C kh kw))
      + (if bias then g (bias_entry be o) else 0)) / inject_Z (Z.of_nat (taps C kernel) + b2z bias))
     <= 0 + span m * (K + layer_slack m w used + 1) / inject_Z (Z.of_nat t))%Q).
  { apply G; clear G.
    - intros Enil. pose proof (triples_len C kh kw) as TL. rewrite Enil in TL. change (zlen (@nil (nat * nat * nat))) with 0 in TL. assert (1 <= C * (kh * kw))%nat by nia. lia.
    - lia.
    - apply (lane4_bits N no ho wo); try assumption. apply forall_firstn. exact Fo2.
    - unfold lane4, zlen. rewrite map_length, firstn_length. f_equal. lia.
    - intros Z. rewrite (Hu Z). reflexivity.
    - discriminate.
    - lra.
    - intros a Ha. destruct (WIN2 a Ha) as (_ & A1 & A2 & A3 & A4 & A5 & A6). destruct a as [[k i] j]. apply triples_in in Ha. destruct Ha as (Hk & Hi & Hj).
      repeat (split; [assumption|]). apply We; assumption.
    - exact Bb.
    - cbv zeta beta.
      assert (MM : forall hh f, (forall a, In a (triples C kh kw) -> tap_stream c p H W hh n y x (fst (fst a)) (snd (fst a)) (snd a) = f a) ->
        sum_taps C kh kw (fun k i j => ones (outs (fsumul_static_step m (entry2 (pc_weight (cv_pc c)) o (tap_index kh kw k i j)) (rng_seq ext KSobol w dimr)) fsumul_static_init (tap_stream c p H W hh n y x k i j)))
        = zsum (map (fun a => ones (outs (fsumul_static_step m (bingen m w (entry4 0%Q we o (fst (fst a)) (snd (fst a)) (snd a))) (rng_seq ext KSobol w dimr)) fsumul_static_init (f a))) (triples C kh kw))).
      { intros hh f Hf. rewrite <- triples_zsum. f_equal. apply map_ext_in. intros [[k i] j] Ha. pose proof (Hf _ Ha) as F. apply triples_in in Ha. destruct Ha as (Hk & Hi & Hj). cbn [fst snd] in *.
        rewrite (Ew o k i j Ho Hk Hi Hj), F. reflexivity. }
      rewrite (MM h1 pre (fun a _ => eq_refl)) in Ones1.
      rewrite (MM (h1 ++ firstn t h2) (fun a => pre a ++ xs a) (fun a Ha => proj1 (WIN2 a Ha))) in Ones2. clear MM.
      change (Z.of_nat (C * (kh * kw))) with (Z.of_nat (taps C kernel)) in Ones1, Ones2.
      set (A := ones (lane4 os1 n o y x)) in *.
      destruct bias; cbn [b2z] in *.
      + destruct (Hbl eq_refl) as (bl & -> & Lb). cbn [option_map bias_entry] in *.
        assert (NB : nth o (map (bingen m w) bl) 0 = bingen m w (nth o bl 0%Q)).
        { rewrite nth_indep with (d' := bingen m w 0%Q) by (rewrite map_length; lia). apply map_nth. }
        rewrite NB in Ones1, Ones2. lia.
      + cbn [option_map] in *. lia. }
  assert (EQ : (qsum (map (fun a => xv a * g (entry4 0 we o (fst (fst a)) (snd (fst a)) (snd a))) (triples C kh kw)) ==
     sumq_taps C kh kw (fun k i j => (if (0 <=? yy i) && (yy i <? Z.of_nat H) && (0 <=? xx j) && (xx j <? Z.of_nat W) then X n k (Z.to_nat (yy i)) (Z.to_nat (xx j)) else 0) *
       entry4 0 (map (map (map (map g))) we) o k i j))%Q).
  { rewrite <- triples_qsum. apply qsum_ext_in. intros [[k i] j] Ha. apply triples_in in Ha. destruct Ha as (Hk & Hi & Hj). cbn [fst snd].
    rewrite (entry4_map g (src_ok m) no C kh kw we o k i j 0%Q 0%Q) by assumption. reflexivity. }
  rewrite EQ in G2.
  assert (Be : match option_map (map g) be with Some b0 => if bias then nth o b0 0 else 0 | None => 0 end%Q = if bias then g (bias_entry be o) else 0%Q).
  { destruct bias; [destruct (Hbl eq_refl) as (bl & -> & Lb)|destruct be; reflexivity]. cbn [option_map bias_entry].
    rewrite nth_indep with (d' := g 0%Q) by (rewrite map_length; lia). apply map_nth. }
  rewrite Be. exact G2.
Qed.

Lemma conv_close ext w m_name r_name m L c a : cbuilds ext w m_name r_name L (c, a) ->
  names_mode m_name m -> named r_name ["sobol"%string; "rc"%string] -> clayer_ok m ext L ->
  forall H W ho wo (X X' : nat -> nat -> nat -> Q) q o y x, conv_sizes (cl_kernel L) (cl_stride L) (cl_dil L) (cl_pad L) (cl_in L) H W ho wo -> (o < cl_out L)%nat -> (0 <= q)%Q ->
  (forall k y x, (k < cl_in L)%nat -> (y < H)%nat -> (x < W)%nat -> (Qabs (X k y x) <= 1)%Q /\ (Qabs (X' k y x) <= 1)%Q /\ (Qabs (X' k y x - X k y x) <= q)%Q) ->
  (Qabs (real_conv L H W X o y x) <= 1)%Q /\ (Qabs (real_conv (cquantised m w L) H W X' o y x) <= 1)%Q /\
  (Qabs (real_conv (cquantised m w L) H W X' o y x - real_conv L H W X o y x) <= q + grid_step m w / 2)%Q.
Proof.
  intros E Hm Hr (HV & Hwe & Hbe & Hd) H W ho wo X X' q o y x Hsz Ho Hq HX.
  unfold cbuilds in E. unfold real_conv, cl_entries, cquantised. cbn [cl_in cl_out cl_kernel cl_stride cl_dil cl_pad cl_bias cl_w cl_b].
  set (PX := fun k i j => pixel L H W (X k) y x i j). set (PX' := fun k i j => pixel L H W (X' k) y x i j).
  assert (PB : forall k i j, (k < cl_in L)%nat -> (Qabs (PX k i j) <= 1)%Q /\ (Qabs (PX' k i j) <= 1)%Q /\ (Qabs (PX' k i j - PX k i j) <= q)%Q).
  { intros k i j Hk. unfold PX, PX', pixel. destruct (_ && _) eqn:Ins; [apply HX; lia|]. change (Qabs 0) with 0%Q. change (Qabs (0 - 0)) with 0%Q. split; [discriminate|]. split; [discriminate|exact Hq]. }
  match goal with |- context [sumq_taps _ _ _ (fun k i j => pixel ?M H W (X' k) y x i j * entry4 0%Q ?t o k i j)%Q] =>
    change (fun k i j => pixel M H W (X' k) y x i j * entry4 0%Q t o k i j)%Q with (fun k i j => PX' k i j * entry4 0%Q t o k i j)%Q end.
  change (fun k i j => pixel L H W (X k) y x i j * entry4 0%Q (cl_w L) o k i j)%Q with (fun k i j => PX k i j * entry4 0%Q (cl_w L) o k i j)%Q.
  clearbody PX PX'. clear HX.
  set (C := cl_in L) in *. set (no := cl_out L) in *. set (kernel := cl_kernel L) in *.
  set (bias := cl_bias L) in *. set (we := cl_w L) in *. set (be := cl_b L) in *.
  clearbody C no kernel bias we be.
  destruct (fconv_parts _ _ _ _ _ _ _ _ _ _ _ _ _ _ _ _ _ _ _ _ _ E Hm Hr) as (_ & _ & _ & _ & _ & _ & _ & _ & _ & _ & _ & _ & _ & Hbl & _). clear E.
  destruct Hsz as (Z1 & Z2 & Z3 & Z4 & Z5 & Z6 & Z7 & Z8 & Z9 & Z10).
  set (kh := fst kernel) in *. set (kw := snd kernel) in *.
  assert (We : forall k i j, (k < C)%nat -> (i < kh)%nat -> (j < kw)%nat -> src_ok m (entry4 0%Q we o k i j)) by (intros k i j Hk Hi Hj; apply (entry4_in (src_ok m) 0%Q no C kh kw); assumption).
  assert (Bb : bias = true -> src_ok m (bias_entry be o)).
  { intros Ebias. destruct (Hbl Ebias) as (bl & -> & Lb). cbn [bias_entry src_opt] in *. rewrite Forall_forall in Hbe. apply Hbe. apply nth_In. lia. }
  set (g := fun y => grid_value m w (bingen m w y)) in *.
  assert (Be : match option_map (map g) be with Some b0 => if bias then nth o b0 0 else 0 | None => 0 end%Q = if bias then g (bias_entry be o) else 0%Q).
  { destruct bias; [destruct (Hbl eq_refl) as (bl & -> & Lb)|destruct be; reflexivity]. cbn [option_map bias_entry].
    rewrite nth_indep with (d' := g 0%Q) by (rewrite map_length; lia). apply map_nth. }
  assert (Be0 : match be with Some b0 => if bias then nth o b0 0 else 0 | None => 0 end%Q = if bias then bias_entry be o else 0%Q).
  { destruct bias; [destruct (Hbl eq_refl) as (bl & -> & _); reflexivity|]. destruct be; reflexivity. }
  rewrite Be, Be0.
  set (F := fun a : nat * nat * nat => (PX (fst (fst a)) (snd (fst a)) (snd a) * entry4 0 we o (fst (fst a)) (snd (fst a)) (snd a))%Q).
  set (F' := fun a : nat * nat * nat => (PX' (fst (fst a)) (snd (fst a)) (snd a) * g (entry4 0 we o (fst (fst a)) (snd (fst a)) (snd a)))%Q).
  assert (EF : (sumq_taps C kh kw (fun k i j => PX k i j * entry4 0 we o k i j) == qsum (map F (triples C kh kw)))%Q).
  { rewrite <- triples_qsum. apply qsum_ext_in. intros [[k i] j] Ha. reflexivity. }
  assert (EF' : (sumq_taps C kh kw (fun k i j => PX' k i j * entry4 0 (map (map (map (map g))) we) o k i j) == qsum (map F' (triples C kh kw)))%Q).
  { rewrite <- triples_qsum. apply qsum_ext_in. intros [[k i] j] Ha. apply triples_in in Ha. destruct Ha as (Hk & Hi & Hj). unfold F'. cbn [fst snd].
    rewrite (entry4_map g (src_ok m) no C kh kw we o k i j 0%Q 0%Q) by assumption. reflexivity. }
  rewrite EF, EF'. assert (Zs : zlen (triples C kh kw) = Z.of_nat (taps C kernel)) by (rewrite triples_len; reflexivity). rewrite <- Zs.
  assert (Hl : triples C kh kw <> []).
  { intros Enil. pose proof (triples_len C kh kw) as TL. rewrite Enil in TL. change (zlen (@nil (nat * nat * nat))) with 0 in TL. assert (1 <= C * (kh * kw))%nat by nia. lia. }
  pose proof (grid_step_pos m w) as GP.
  assert (G2 : (0 < grid_step m w / 2)%Q) by (apply Qlt_shift_div_l; lra).
  split; [|split].
  - apply mean_in; [exact Hl| |intros Eb; exact (src_abs m _ (Bb Eb))]. intros [[k i] j] Ha. apply triples_in in Ha. destruct Ha as (Hk & Hi & Hj). unfold F. cbn [fst snd].
    destruct (PB k i j Hk) as (A1 & _ & _). pose proof (src_abs m _ (We k i j Hk Hi Hj)) as A2.
    rewrite Qabs_Qmult. pose proof (Qabs_nonneg (PX k i j)). pose proof (Qabs_nonneg (entry4 0%Q we o k i j)). nra.
  - apply mean_in; [exact Hl| |intros Eb; exact (grid_in m w _ (Bb Eb))]. intros [[k i] j] Ha. apply triples_in in Ha. destruct Ha as (Hk & Hi & Hj). unfold F'. cbn [fst snd].
    destruct (PB k i j Hk) as (_ & A1 & _). pose proof (grid_in m w _ (We k i j Hk Hi Hj)) as A2. fold (g (entry4 0%Q we o k i j)) in A2.
    rewrite Qabs_Qmult. pose proof (Qabs_nonneg (PX' k i j)). pose proof (Qabs_nonneg (g (entry4 0%Q we o k i j))). nra.
  - apply (mean_close (triples C kh kw) bias F' F (g (bias_entry be o)) (bias_entry be o)); [exact Hl| |].
    + intros [[k i] j] Ha. apply triples_in in Ha. destruct Ha as (Hk & Hi & Hj). unfold F, F'. cbn [fst snd]. destruct (PB k i j Hk) as (A1 & A2 & A3).
      apply prod_close; [exact A1|exact A2|exact (src_abs m _ (We k i j Hk Hi Hj))|exact A3|apply grid_err].
    + intros Eb. pose proof (grid_err m w (bias_entry be o)) as GE. apply qabs_le in GE. apply qabs_le. unfold g. split; lra.
Qed.

Definition imgs (W H C N : nat) (x : tensor Z) : list (image Z) :=
  map (fun n => map (fun c => map (fun y => map (fun x0 => elt x [x0; y; c; n]) (seq 0 W)) (seq 0 H)) (seq 0 C)) (seq 0 N).
Lemma imgs_entry W H C N t n c y x : (n < N)%nat -> (c < C)%nat -> (y < H)%nat -> (x < W)%nat -> entry4 0 (imgs W H C N t) n c y x = elt t [x; y; c; n].
Proof.
  intros Hn Hc Hy Hx. unfold entry4, imgs. rewrite nth_map_seq by exact Hn. rewrite nth_map_seq by exact Hc. rewrite nth_map_seq by exact Hy.
  exact (nth_map_seq (fun x0 => elt t [x0; y; c; n]) 0 W x Hx).
Qed.
Lemma imgs_ok W H C N h : hist_ok [W; H; C; N] h -> Forall (tensor_ok bit N C H W) (map (imgs W H C N) h).
Proof.
  intros HH. apply Forall_map. eapply Forall_impl; [|exact HH]. intros t [E Bt]. unfold tensor_ok, imgs. split; [rewrite map_length, seq_length; reflexivity|].
  apply Forall_map, Forall_forall. intros n Hn. apply in_seq in Hn. split; [rewrite map_length, seq_length; reflexivity|].
  apply Forall_map, Forall_forall. intros c Hc. apply in_seq in Hc. split; [rewrite map_length, seq_length; reflexivity|].
  apply Forall_map, Forall_forall. intros y Hy. apply in_seq in Hy. split; [rewrite map_length, seq_length; reflexivity|].
  apply Forall_map, Forall_forall. intros x Hx. apply in_seq in Hx. apply Bt. cbn [valid]. lia.
Qed.
Lemma imgs_lane W H C N h n c y x : (n < N)%nat -> (c < C)%nat -> (y < H)%nat -> (x < W)%nat -> lane4 (map (imgs W H C N) h) n c y x = tlane h [x; y; c; n].
Proof. intros Hn Hc Hy Hx. unfold lane4, tlane. rewrite map_map. apply map_ext. intros t. apply imgs_entry; assumption. Qed.
Lemma of_imgs_ok W H C N os : (1 <= N)%nat -> (1 <= C)%nat -> (1 <= H)%nat -> Forall (tensor_ok bit N C H W) os -> hist_ok [W; H; C; N] (map of_imgs os).
Proof.
  intros HN HC HH Hos. apply Forall_map. eapply Forall_impl; [|exact Hos]. intros t Ht. cbn beta. split.
  - destruct Ht as [L F]. unfold of_imgs. cbn [shp]. rewrite L. destruct t as [|i t]; [cbn in L; lia|]. apply Forall_inv in F. destruct F as [LC FC]. cbn [hd]. rewrite LC.
    destruct i as [|ch i]; [cbn in LC; lia|]. apply Forall_inv in FC. destruct FC as [LH FH]. cbn [hd]. rewrite LH.
    destruct ch as [|r ch]; [cbn in LH; lia|]. apply Forall_inv in FH. destruct FH as [LW FW]. cbn [hd]. rewrite LW. reflexivity.
  - intros i Vi. destruct i as [|x [|y [|c [|n [|z l]]]]]; try (cbn in Vi; tauto). cbn in Vi. destruct Vi as (Vx & Vy & Vc & Vn & _).
    change (bit (entry4 0 t n c y x)). apply (entry4_in bit 0 N C H W); assumption.
Qed.
Lemma of_imgs_lane os n c y x : tlane (map of_imgs os) [x; y; c; n] = lane4 os n c y x.
Proof. unfold tlane, lane4. rewrite map_map. reflexivity. Qed.

Lemma follows_conv ext w m_name r_name m L ca N H W ho wo used q K : cbuilds ext w m_name r_name L ca ->
  names_mode m_name m -> named r_name ["sobol"%string; "rc"%string] -> (1 <= w <= 30)%nat -> clayer_ok m ext L -> (1 <= N)%nat -> (1 <= cl_out L)%nat -> (0 <= q)%Q -> ((1 # 2) <= K)%Q ->
  conv_sizes (cl_kernel L) (cl_stride L) (cl_dil L) (cl_pad L) (cl_in L) H W ho wo ->
  follows m (m_conv ca) [W; H; cl_in L; N] [wo; ho; cl_out L; N] used q K (q + grid_step m w / 2) (K + layer_slack m w used + 1)
    (fun v i => match i with [x; y; o; n] => real_conv L H W (fun k y x => v [x; y; k; n]) o y x | _ => 0%Q end).
Proof.
  destruct ca as [c a]. intros HB Hm Hr Hw HL HN HO Hq HK Hsz h1 h2 v H1 H2 Hu Hv. set (C := cl_in L) in *.
  destruct (pick 0%Q [W; H; C; N] (fun i v' => (Qabs (v' - v i) <= q)%Q /\ (Qabs v' <= 1)%Q /\ progresses m 0 K v' (tlane h2 i))) as [v' Hv'].
  { intros i Vi. exact (proj2 (Hv i Vi)). }
  assert (VAL : forall n k y x, (n < N)%nat -> (k < C)%nat -> (y < H)%nat -> (x < W)%nat -> valid [W; H; C; N] [x; y; k; n]) by (intros n k y x Hn Hk Hy Hx; cbn [valid]; lia).
  assert (Hu' : used = false -> map (imgs W H C N) h1 = []) by (intros X; rewrite (Hu X); reflexivity).
  destruct (conv_core _ _ _ _ m L c a HB Hm Hr Hw HL N H W ho wo used (map (imgs W H C N) h1) (map (imgs W H C N) h2) (fun n k y x => v' [x; y; k; n]) K Hsz HN (imgs_ok _ _ _ _ _ H1) (imgs_ok _ _ _ _ _ H2) Hu'
    HK) as (o1 & o2 & R & L1 & L2 & F1 & F2 & P).
  { intros n k y x Hn Hk Hy Hx. rewrite imgs_lane by assumption. destruct (Hv' _ (VAL n k y x Hn Hk Hy Hx)) as (_ & A & Pr). split; [exact A|exact Pr]. }
  exists (map of_imgs o1), (map of_imgs o2).
  split.
  { rewrite <- map_app. cbn [m_conv m_step m_init fst snd]. apply wrap_run with (xs := map (imgs W H C N) (h1 ++ h2)).
    - rewrite map_map. apply map_ext_in. intros x Hx. pose proof (hist_app _ _ _ H1 H2) as H12. unfold hist_ok in H12. rewrite Forall_forall in H12. destruct (H12 x Hx) as [E _].
      unfold to_imgs. rewrite E. reflexivity.
    - rewrite map_app. exact R. }
  destruct Hsz as (Z1 & Z2 & Z3 & Z4 & Z5 & Z6 & Z7 & Z8 & Z9 & Z10).
  rewrite !map_length in *. split; [exact L1|]. split; [exact L2|]. split; [apply of_imgs_ok; try assumption; lia|]. split; [apply of_imgs_ok; try assumption; lia|].
  intros i Vi. destruct i as [|x [|y [|o [|n [|z l]]]]]; try (cbn in Vi; tauto). cbn in Vi. destruct Vi as (Vx & Vy & Vo & Vn & _).
  destruct (conv_close _ _ _ _ m L c a HB Hm Hr HL H W ho wo (fun k y x => v [x; y; k; n]) (fun k y x => v' [x; y; k; n]) q o y x) as (C1 & C2 & C3); [repeat split; assumption|exact Vo|exact Hq| |].
  { intros k y0 x0 Hk Hy0 Hx0. destruct (Hv _ (VAL n k y0 x0 Vn Hk Hy0 Hx0)) as [A _]. destruct (Hv' _ (VAL n k y0 x0 Vn Hk Hy0 Hx0)) as (B1 & B2 & _). auto. }
  split; [exact C1|]. exists (real_conv (cquantised m w L) H W (fun k y x => v' [x; y; k; n]) o y x). split; [exact C3|]. split; [exact C2|].
  rewrite of_imgs_lane. exact (P n o y x Vn Vo Vy Vx).
Qed.

(** ** Networks *)
Lemma layer_slack_nonneg m w used : (0 <= layer_slack m w used)%Q.
Proof. unfold layer_slack. change 0%Q with (inject_Z 0). rewrite <- Zle_Qle. destruct used, m; lia. Qed.
Lemma stage_follows ext w m_name r_name m st M : built ext w m_name r_name st M ->
  names_mode m_name m -> named r_name ["sobol"%string; "rc"%string] -> (1 <= w <= 30)%nat ->
  forall s used q K, (0 <= q)%Q -> (0 <= K)%Q -> stage_fits st s -> stage_ok m ext st K ->
  follows m M s (stage_out st s) used q K (q_after m w st q) (K_after m w used st K) (real_stage st s) /\ (0 <= q_after m w st q)%Q /\ (0 <= K_after m w used st K)%Q.
Proof.
  intros HB Hm Hr Hw s used q K Hq HK HF HO. pose proof (layer_slack_nonneg m w used) as LS. pose proof (grid_step_pos m w) as GP.
  assert (G2 : (0 < grid_step m w / 2)%Q) by (apply Qlt_shift_div_l; lra).
  destruct st as [L|L|d|depth| |]; cbn [built stage_fits stage_ok q_after K_after] in *.
  - destruct HB as (ca & HB & ->). destruct s as [|n [|B [|z l]]]; try contradiction. destruct HF as (<- & HO1 & HB1).
    split; [exact (follows_linear _ _ _ _ m L ca B used q K HB Hm Hr Hw HO HB1 Hq HK)|]. split; lra.
  - destruct HB as (ca & HB & ->). destruct s as [|W [|H [|C [|N [|z l]]]]]; try contradiction. destruct HF as (<- & HO1 & HN & ho & wo & Hsz). destruct HO as [HO HK2].
    split; [|split; lra]. pose proof (follows_conv _ _ _ _ m L ca N H W ho wo used q K HB Hm Hr Hw HO HN HO1 Hq HK2 Hsz) as FC.
    destruct Hsz as (_ & _ & _ & _ & _ & _ & _ & _ & Z9 & Z10). cbn [stage_out]. rewrite Z9, Z10, !Nat2Z.id. exact FC.
  - subst M. destruct HO as [-> HO]. destruct s as [|s0 s]; [contradiction|].
    split; [exact (follows_relu d (s0 :: s) used q K ltac:(discriminate) HK HO)|]. split; [exact Hq|].
    unfold relu_slack. destruct used; [|lra]. destruct (Qle_bool _ _) eqn:B; [apply Qle_bool_iff in B|]; lra.
  - destruct HB as (c & HB & ->). destruct s as [|s0 s]; [contradiction|]. 
    assert (c = hardsigmoid_cfg m depth) as ->.
    { assert (X : fsuhardsigmoid_new m_name depth = Ok (hardsigmoid_cfg m depth)) by (apply (proj1 (NewProof.hardsigmoid_outcomes m_name depth)); auto). congruence. }
    split; [exact (follows_hardsigmoid m depth (s0 :: s) used q K ltac:(discriminate) HO)|].
    assert (Q1 : (q / 2 == q * (1 # 2))%Q) by field. assert (Q2 : (K / 2 == K * (1 # 2))%Q) by field. rewrite Q1, Q2. split; lra.
  - subst M. split; [exact (follows_id m s used q K)|]. split; assumption.
  - subst M. destruct s as [|W [|H [|C [|N [|z l]]]]]; try contradiction. destruct HF as [HW HH].
    split; [exact (follows_flatten m W H C N used q K HW HH)|]. split; assumption.
Qed.

Theorem seq_follows : forall ext w m_name r_name m sts Ms, Forall2 (built ext w m_name r_name) sts Ms ->
  names_mode m_name m -> named r_name ["sobol"%string; "rc"%string] -> (1 <= w <= 30)%nat ->
  forall s (used : bool) q K, (0 <= q)%Q -> (0 <= K)%Q -> seq_fits m ext w used sts s K ->
  follows m (sequential Ms) s (seq_out sts s) used q K (q_seq m w sts q) (K_seq m w used sts K) (real_seq sts s).
Proof.
  intros ext w mn rn m sts Ms HB Hm Hr Hw. induction HB as [|st M sts Ms HM HB IH]; intros s used q K Hq HK HF.
  - apply follows_id.
  - destruct HF as (F1 & F2 & F3). destruct (stage_follows _ _ _ _ m st M HM Hm Hr Hw s used q K Hq HK F1 F2) as (FS & Q1 & K1).
    exact (follows_seq m M (sequential Ms) s _ _ used q K _ _ _ _ _ _ FS (IH _ used _ _ Q1 K1 F3)).
Qed.

Theorem net_tracks : forall ext w m_name r_name m sts Ms, Forall2 (built ext w m_name r_name) sts Ms ->
  names_mode m_name m -> named r_name ["sobol"%string; "rc"%string] -> (1 <= w <= 30)%nat ->
  forall s (used : bool) q K h1 h2 v, (0 <= q)%Q -> (0 <= K)%Q -> seq_fits m ext w used sts s K ->
  hist_ok s h1 -> hist_ok s h2 -> (used = false -> h1 = []) ->
  (forall i, valid s i -> (Qabs (v i) <= 1)%Q /\ tracks m q K (v i) (tlane h2 i)) ->
  exists os1 os2, outputs (run_r (m_step (sequential Ms)) (m_init (sequential Ms)) (h1 ++ h2)) = Some (os1 ++ os2) /\
    length os1 = length h1 /\ length os2 = length h2 /\ hist_ok (seq_out sts s) os1 /\ hist_ok (seq_out sts s) os2 /\
    forall i, valid (seq_out sts s) i -> (Qabs (real_seq sts s v i) <= 1)%Q /\ tracks m (q_seq m w sts q) (K_seq m w used sts K) (real_seq sts s v i) (tlane os2 i).
Proof. intros ext w mn rn m sts Ms HB Hm Hr Hw s used q K h1 h2 v Hq HK HF. exact (seq_follows ext w mn rn m sts Ms HB Hm Hr Hw s used q K Hq HK HF h1 h2 v). Qed.

(** What tracking says about the measured rate. *)
Lemma tracks_rate m q K v xs : tracks m q K v xs -> progresses m q K v xs.
Proof.
  intros (v' & A & _ & P) t Ht. specialize (P t Ht). apply qabs_le in A, P. apply qabs_le. set (e := (span m * K / inject_Z (Z.of_nat t))%Q) in *. clearbody e. split; lra.
Qed.

(** Inputs encoded by Sobol generators. *)
Lemma bsgen_tracks : forall m ext w d s n, (w <= 30)%nat -> dirvec_ok 30 (ext_dirvec ext d) -> src_ok m s ->
  tracks m (grid_step m w / 2) (inject_Z (Z.of_nat w)) s (bsgen_stream (bingen m w s) (rng_seq ext KSobol w d) 0 n).
Proof.
  intros m ext w d s n Hw HV Hs. exists (grid_value m w (bingen m w s)). split; [apply grid_err|]. split; [apply grid_in; exact Hs|].
  intros t Ht. pose proof (bsgen_stream_len (bingen m w s) (rng_seq ext KSobol w d) 0 n) as L. unfold zlen in L.
  rewrite bsgen_firstn by lia. pose proof (bsgen_near ext w d (bingen m w s) t Hw HV (proj1 (bingen_all m w) s Hs)) as N.
  pose proof (near_value m _ _ _ N) as V. rewrite bsgen_stream_len, of_prob_grid in V.
  assert (NE : bsgen_stream (bingen m w s) (rng_seq ext KSobol w d) 0 t <> []).
  { unfold bsgen_stream. destruct t; [lia|]. discriminate. }
  specialize (V NE). apply qabs_le in V. apply qabs_le. split; lra.
Qed.
Theorem net_encoded_tracks : forall ext w m_name r_name m sts Ms, Forall2 (built ext w m_name r_name) sts Ms ->
  names_mode m_name m -> named r_name ["sobol"%string; "rc"%string] -> (1 <= w <= 30)%nat ->
  forall s (used : bool) h1 h2 extx dimx x, seq_fits m ext w used sts s (inject_Z (Z.of_nat w)) ->
  hist_ok s h1 -> hist_ok s h2 -> (used = false -> h1 = []) ->
  (forall i, valid s i -> dirvec_ok 30 (ext_dirvec extx (dimx i)) /\ src_ok m (x i) /\
     tlane h2 i = bsgen_stream (bingen m w (x i)) (rng_seq extx KSobol w (dimx i)) 0 (length h2)) ->
  exists os1 os2, outputs (run_r (m_step (sequential Ms)) (m_init (sequential Ms)) (h1 ++ h2)) = Some (os1 ++ os2) /\
    length os1 = length h1 /\ length os2 = length h2 /\ hist_ok (seq_out sts s) os2 /\
    forall i t, valid (seq_out sts s) i -> (1 <= t <= length h2)%nat ->
      (Qabs (value m (firstn t (tlane os2 i)) - real_seq sts s x i)
       <= q_seq m w sts (grid_step m w / 2) + span m * K_seq m w used sts (inject_Z (Z.of_nat w)) / inject_Z (Z.of_nat t))%Q.
Proof.
  intros ext w mn rn m sts Ms HB Hm Hr Hw s used h1 h2 extx dimx x HF H1 H2 Hu Hx.
  pose proof (grid_step_pos m w) as GP. assert (G2 : (0 < grid_step m w / 2)%Q) by (apply Qlt_shift_div_l; lra).
  assert (W0 : (0 <= inject_Z (Z.of_nat w))%Q) by (change 0%Q with (inject_Z 0); rewrite <- Zle_Qle; lia).
  destruct (net_tracks ext w mn rn m sts Ms HB Hm Hr Hw s used (grid_step m w / 2)%Q (inject_Z (Z.of_nat w)) h1 h2 x ltac:(lra) W0 HF H1 H2 Hu) as (os1 & os2 & R & L1 & L2 & O1 & O2 & P).
  { intros i Vi. destruct (Hx i Vi) as (V & S & ->). split; [exact (src_abs m _ S)|]. apply bsgen_tracks; [lia|exact V|exact S]. }
  exists os1, os2. split; [exact R|]. split; [exact L1|]. split; [exact L2|]. split; [exact O2|]. intros i t Vi Ht.
  apply (tracks_rate _ _ _ _ _ (proj2 (P i Vi))). unfold tlane. rewrite map_length, L2. exact Ht.
Qed.

(** A counter of two bits and a stream of value 0 that arrives in runs of three. *)
Definition runs (k : nat) : list Z := concat (repeat [1; 1; 1; 0; 0; 0] k).
Lemma runs_walk : forall k t, 0 <= walk (firstn t (runs k)) <= 3.
Proof.
  unfold runs. induction k as [|k IH]; intros t; [cbn [repeat concat]; rewrite firstn_nil; cbn; lia|].
  cbn [repeat concat app]. set (r := concat _) in *. clearbody r.
  do 6 (destruct t as [|t]; [cbn; lia|]). cbn [firstn]. specialize (IH t). unfold walk, ones, zeros in *. cbn [countb].
  set (a := countb (Z.eqb 1) _) in *. set (b := countb (Z.eqb 0) _) in *. cbn [Z.eqb Pos.eqb]. lia.
Qed.
Lemma runs_progress k : progresses Bipolar 0 (3 # 2) 0 (runs k).
Proof.
  intros t Ht. pose proof (runs_walk k t) as W. assert (L : zlen (firstn t (runs k)) = Z.of_nat t) by (rewrite zlen_firstn; lia).
  unfold value. rewrite L. assert (TP : (0 < inject_Z (Z.of_nat t))%Q) by (apply inj_pos; lia). set (T := inject_Z (Z.of_nat t)) in *. clearbody T.
  destruct W as [W0 W1]. rewrite Zle_Qle in W0, W1. change (inject_Z 0) with 0%Q in W0. change (inject_Z 3) with 3%Q in W1. set (z := inject_Z (walk _)) in *. clearbody z. unfold span.
  apply qabs_le. assert (E1 : ((z / T - 0) * T == z)%Q) by (field; lra). assert (E2 : ((0 + 2 * (3 # 2) / T) * T == 3)%Q) by (field; lra).
  split; apply (Qmult_le_r _ _ T TP); rewrite E1; [setoid_replace (- (0 + 2 * (3 # 2) / T) * T)%Q with (- ((0 + 2 * (3 # 2) / T) * T))%Q by ring|]; rewrite E2; lra.
Qed.
Lemma runs_relu : forall k, outs (fsurelu_step 1) (fsurelu_init 1) (runs k) = concat (repeat [1; 1; 1; 0; 0; 1] k).
Proof.
  induction k as [|k IH]; [reflexivity|]. change (runs (Datatypes.S k)) with ([1; 1; 1; 0; 0; 0] ++ runs k). rewrite outs_app.
  change (final (fsurelu_step 1) (fsurelu_init 1) [1; 1; 1; 0; 0; 0]) with (fsurelu_init 1). rewrite IH. reflexivity.
Qed.
Theorem relu_shallow : forall k, (1 <= k)%nat -> progresses Bipolar 0 (3 # 2) 0 (runs k) /\
  (value Bipolar (outs (fsurelu_step 1) (fsurelu_init 1) (runs k)) == 1 # 3)%Q.
Proof.
  intros k Hk. split; [apply runs_progress|]. rewrite runs_relu.
  assert (W : walk (concat (repeat [1; 1; 1; 0; 0; 1] k)) = 2 * Z.of_nat k /\ zlen (concat (repeat [1; 1; 1; 0; 0; 1] k)) = 6 * Z.of_nat k).
  { clear. induction k as [|k IH]; [split; reflexivity|]. cbn [repeat concat]. set (r := concat _) in *. clearbody r. destruct IH as [I1 I2].
    unfold walk in *. rewrite ones_app, zeros_app, zlen_app.
    change (ones [1; 1; 1; 0; 0; 1]) with 4. change (zeros [1; 1; 1; 0; 0; 1]) with 2. change (zlen [1; 1; 1; 0; 0; 1]) with 6. lia. }
  destruct W as [W L]. unfold value. rewrite W, L, !inject_Z_mult. assert (TP : (0 < inject_Z (Z.of_nat k))%Q) by (apply inj_pos; lia). set (T := inject_Z (Z.of_nat k)) in *. clearbody T.
  change (inject_Z 2) with 2%Q. change (inject_Z 6) with 6%Q. field. lra.
Qed.
