(** Proofs for C91 and C92: symbolic execution of the forward functions on the store, with the registers' storages kept apart from
    whatever the client can reach. *)
Require Import Verif.BaseLemmas Verif.AliasSpec.
Open Scope Z_scope.

Lemma upd_eq {A} (f : nat -> A) k v x : x = k -> upd f k v x = v.
Proof. intros ->; unfold upd; now rewrite Nat.eqb_refl. Qed.
Lemma upd_ne {A} (f : nat -> A) k v x : x <> k -> upd f k v x = f x.
Proof. intros H; unfold upd; destruct (Nat.eqb_spec x k); [ contradiction | reflexivity ]. Qed.

Definition st (h : heap) (o : nat) : nat := o_st (h_obj h o).
Definition wf (h : heap) : Prop := forall o, (o < h_nobj h)%nat -> (st h o < h_nst h)%nat.
Definition okr (h : heap) (rs : list nat) : Prop :=
  NoDup (map (st h) rs) /\ forall r, In r rs -> (r < h_nobj h)%nat /\ o_row (h_obj h r) = None.
(** v is an object outside the registers rs. *)
Definition away (h : heap) (rs : list nat) (v : nat) : Prop := (v < h_nobj h)%nat /\ ~ In (st h v) (map (st h) rs).

Record newed (rs sh : list nat) (h h' : heap) : Prop := {
  n_no : (h_nobj h <= h_nobj h')%nat; n_ns : (h_nst h <= h_nst h')%nat; n_wf : wf h'; n_regs : okr h' rs;
  n_obj : forall o, (o < h_nobj h)%nat -> h_obj h' o = h_obj h o;
  n_st : forall s, (s < h_nst h)%nat -> h_st h' s = h_st h s;
  n_own : forall r, In r rs -> (h_nst h <= st h' r)%nat;
  n_sh : forall o, In o sh -> (h_nobj h <= o)%nat /\ away h' rs o
}.
Record stepped (rs sh : list nat) (h h' : heap) (objs os : list nat) : Prop := {
  s_no : (h_nobj h <= h_nobj h')%nat; s_ns : (h_nst h <= h_nst h')%nat; s_wf : wf h'; s_regs : okr h' rs;
  s_obj : forall o, (o < h_nobj h)%nat -> ~ In o rs -> ~ In o sh -> h_obj h' o = h_obj h o;
  s_st : forall s, (s < h_nst h)%nat -> ~ In s (map (st h) rs) -> h_st h' s = h_st h s;
  s_own : forall r, In r rs -> In (st h' r) (map (st h) rs) \/ (h_nst h <= st h' r)%nat;
  s_sh : forall o, In o sh -> h_obj h' o = h_obj h o \/ away h' rs o;
  s_outs : forall o, In o os -> (o < h_nobj h')%nat /\ (In o objs \/ In o sh \/ ((h_nobj h <= o)%nat /\ ~ In (st h' o) (map (st h') rs)))
}.
Definition fresh_outs (rs : list nat) (h h' : heap) (os : list nat) : Prop :=
  NoDup (map (st h') os) /\ forall o, In o os -> (h_nobj h <= o)%nat /\ (In (st h' o) (map (st h) rs) \/ (h_nst h <= st h' o)%nat).

Lemma away_kept rs sh h h' objs os o : stepped rs sh h h' objs os -> wf h -> okr h rs -> away h rs o -> ~ In o sh ->
  h_obj h' o = h_obj h o /\ away h' rs o /\ rd h' o = rd h o.
Proof.
  intros S W R [Ho Ha] Hs.
  assert (Hr : ~ In o rs) by (intros Hi; apply Ha; now apply in_map).
  assert (E : h_obj h' o = h_obj h o) by (apply (s_obj _ _ _ _ _ _ S); assumption).
  pose proof (W o Ho) as Hst.
  repeat split; [ exact E | pose proof (s_no _ _ _ _ _ _ S); lia | |].
  - unfold st in *; rewrite E. intros Hi. apply in_map_iff in Hi. destruct Hi as [r [E2 Hi]].
    destruct (s_own _ _ _ _ _ _ S r Hi) as [H | H].
    + unfold st in H at 1; rewrite E2 in H. apply Ha, H.
    + unfold st in H; rewrite E2 in H. lia.
  - unfold rd. rewrite E, (s_st _ _ _ _ _ _ S); [ reflexivity | exact Hst | exact Ha ].
Qed.

Lemma pick_in vis ks objs : pick vis ks = Some objs -> forall o, In o objs -> In o vis.
Proof.
  revert objs; induction ks as [| k r IH]; cbn [pick]; intros objs H.
  - injection H as <-. intros o [].
  - destruct (nth_error vis k) as [p|] eqn:E; [| discriminate]. destruct (pick vis r) as [l|] eqn:E2; [| discriminate].
    injection H as <-. intros o [<- | Hi]; [ now apply nth_error_In in E | exact (IH l eq_refl o Hi) ].
Qed.

(** The store the client works on keeps its shape. *)
Definition good (h : heap) (rs : list nat) (vis : list nat) : Prop := wf h /\ okr h rs /\ forall v, In v vis -> away h rs v.
Lemma client_good c h rs vis sh h' vis' : good h rs (vis ++ sh) -> client_do c h vis = (h', vis') ->
  good h' rs (vis' ++ sh) /\ (exists l, vis' = vis ++ l) /\ (forall r, In r rs -> h_obj h' r = h_obj h r /\ rd h' r = rd h r).
Proof.
  intros [W [[N R] V]] E.
  assert (RO : forall r, In r rs -> (r < h_nobj h)%nat /\ (st h r < h_nst h)%nat).
  { intros r Hr; destruct (R r Hr) as [A _]. split; [ exact A | exact (W r A) ]. }
  assert (stay : forall h2, (forall o, (o < h_nobj h)%nat -> ~ (exists v, In v (vis ++ sh) /\ o = v) -> h_obj h2 o = h_obj h o) ->
    (forall s, (s < h_nst h)%nat -> ~ (exists v, In v (vis ++ sh) /\ s = st h v) -> h_st h2 s = h_st h s) ->
    forall r, In r rs -> h_obj h2 r = h_obj h r /\ rd h2 r = rd h r).
  { intros h2 H1 H2 r Hr. destruct (RO r Hr) as [A B].
    assert (E1 : h_obj h2 r = h_obj h r).
    { apply H1; [ exact A |]. intros [v [Hv ->]]. apply (proj2 (V v Hv)). now apply in_map. }
    split; [ exact E1 |]. unfold rd. rewrite E1, H2; [ reflexivity | exact B |].
    intros [v [Hv Es]]. apply (proj2 (V v Hv)). rewrite <- Es. fold (st h r). now apply in_map. }
  assert (keepN : forall h2, (forall r, In r rs -> h_obj h2 r = h_obj h r) -> map (st h2) rs = map (st h) rs).
  { intros h2 H. apply map_ext_in. intros r Hr. unfold st. now rewrite H. }
  assert (same : good h rs (vis ++ sh) /\ (exists l, vis = vis ++ l) /\ (forall r, In r rs -> h_obj h r = h_obj h r /\ rd h r = rd h r)).
  { split; [ exact (conj W (conj (conj N R) V)) | split; [ exists []; now rewrite app_nil_r | intros r _; now split ]]. }
  destruct c as [d t | k d | k l | k i]; cbn [client_do] in E.
  - (* new *) unfold alloc in E. injection E as <- <-. set (h2 := {| h_obj := _ |}).
    assert (K : forall r, In r rs -> h_obj h2 r = h_obj h r /\ rd h2 r = rd h r).
    { apply stay; unfold h2; intros x Hx _; cbn [h_obj h_st]; apply upd_ne; lia. }
    split; [| split; [ eexists; reflexivity | exact K ]].
    split; [| split; [ split |]].
    + intros o Ho. unfold st, h2 in *. cbn [h_obj h_nst h_nobj] in *. destruct (Nat.eq_dec o (h_nobj h)) as [-> | Ne].
      * rewrite upd_eq by reflexivity. cbn. lia.
      * rewrite upd_ne by exact Ne. pose proof (W o ltac:(lia)). unfold st in *. lia.
    + rewrite keepN by (intros r Hr; exact (proj1 (K r Hr))). exact N.
    + intros r Hr. rewrite (proj1 (K r Hr)). unfold h2; cbn [h_nobj]. split; [ destruct (RO r Hr); lia | exact (proj2 (R r Hr)) ].
    + intros v Hv. assert (Hv' : In v (vis ++ sh) \/ h_nobj h = v) by (rewrite !in_app_iff in *; cbn [In] in Hv; intuition). clear Hv; rename Hv' into Hv. split; [ unfold h2; cbn [h_nobj]; destruct Hv as [Hv | <-]; [ pose proof (proj1 (V v Hv)); lia | lia ] |].
      rewrite keepN by (intros r Hr; exact (proj1 (K r Hr))). unfold st at 1, h2. cbn [h_obj].
      destruct Hv as [Hv | <-].
      * destruct (V v Hv) as [A B]. rewrite upd_ne by lia. exact B.
      * rewrite upd_eq by reflexivity. cbn [o_st]. intros Hi. apply in_map_iff in Hi. destruct Hi as [r [E2 Hr]].
        destruct (RO r Hr). lia.
  - (* write *) destruct (nth_error vis k) as [o|] eqn:Ek.
    2:{ injection E as <- <-. exact same. }
    injection E as <- <-. apply nth_error_In in Ek. apply (fun H => in_or_app vis sh _ (or_introl H)) in Ek. cbn [fst write].
    split; [| split; [ exists []; now rewrite app_nil_r |]].
    + split; [ exact W | split; [ split; [ exact N | exact R ] | exact V ]].
    + apply stay; cbn [h_obj h_st]; [ reflexivity |]. intros s Hs Hn. apply upd_ne. intros ->. apply Hn. exists o. split; [ exact Ek | reflexivity ].
  - (* point *) destruct (nth_error vis k) as [o|] eqn:Ek.
    2:{ injection E as <- <-. exact same. }
    destruct (nth_error vis l) as [p|] eqn:El.
    2:{ injection E as <- <-. exact same. }
    injection E as <- <-. apply nth_error_In in Ek. apply (fun H => in_or_app vis sh _ (or_introl H)) in Ek. apply nth_error_In in El. apply (fun H => in_or_app vis sh _ (or_introl H)) in El. cbn [fst set_data].
    set (h2 := {| h_obj := _ |}).
    assert (K : forall r, In r rs -> h_obj h2 r = h_obj h r /\ rd h2 r = rd h r).
    { apply stay; unfold h2; cbn [h_obj h_st]; [| reflexivity ]. intros x Hx Hn. apply upd_ne. intros ->. apply Hn. exists o. now split. }
    split; [| split; [ exists []; now rewrite app_nil_r | exact K ]].
    assert (O : forall x, h_obj h2 x = h_obj h x \/ h_obj h2 x = h_obj h p).
    { intros x. unfold h2; cbn [h_obj]. destruct (Nat.eq_dec x o); [ right; now apply upd_eq | left; now apply upd_ne ]. }
    split; [| split; [ split |]].
    + intros x Hx. unfold st. destruct (O x) as [-> | ->]; [ exact (W x Hx) | exact (W p (proj1 (V p El))) ].
    + rewrite keepN by (intros r Hr; exact (proj1 (K r Hr))). exact N.
    + intros r Hr. rewrite (proj1 (K r Hr)). exact (R r Hr).
    + intros v Hv. split; [ exact (proj1 (V v Hv)) |]. rewrite keepN by (intros r Hr; exact (proj1 (K r Hr))). unfold st at 1.
      destruct (O v) as [-> | ->]; [ exact (proj2 (V v Hv)) | exact (proj2 (V p El)) ].
  - (* view *) destruct (nth_error vis k) as [o|] eqn:Ek.
    2:{ injection E as <- <-. exact same. }
    destruct (o_row (h_obj h o)) as [j|] eqn:Er.
    { injection E as <- <-. exact same. }
    unfold view in E. injection E as <- <-. apply nth_error_In in Ek. apply (fun H => in_or_app vis sh _ (or_introl H)) in Ek. set (h2 := {| h_obj := _ |}).
    assert (K : forall r, In r rs -> h_obj h2 r = h_obj h r /\ rd h2 r = rd h r).
    { apply stay; unfold h2; cbn [h_obj h_st]; [| reflexivity ]. intros x Hx _. apply upd_ne. lia. }
    split; [| split; [ eexists; reflexivity | exact K ]].
    destruct (V o Ek) as [Vo1 Vo2]. pose proof (W o Vo1) as Wo.
    split; [| split; [ split |]].
    + intros x Hx. unfold st, h2 in *. cbn [h_obj h_nst h_nobj] in *. destruct (Nat.eq_dec x (h_nobj h)) as [-> | Ne].
      * rewrite upd_eq by reflexivity. cbn [o_st]. exact Wo.
      * rewrite upd_ne by exact Ne. exact (W x ltac:(lia)).
    + rewrite keepN by (intros r Hr; exact (proj1 (K r Hr))). exact N.
    + intros r Hr. rewrite (proj1 (K r Hr)). unfold h2; cbn [h_nobj]. split; [ destruct (RO r Hr); lia | exact (proj2 (R r Hr)) ].
    + intros v Hv. assert (Hv' : In v (vis ++ sh) \/ h_nobj h = v) by (rewrite !in_app_iff in *; cbn [In] in Hv; intuition). clear Hv; rename Hv' into Hv. split.
      * unfold h2; cbn [h_nobj]. destruct Hv as [Hv | <-]; [ pose proof (proj1 (V v Hv)); lia | lia ].
      * rewrite keepN by (intros r Hr; exact (proj1 (K r Hr))). unfold st at 1, h2. cbn [h_obj].
        destruct Hv as [Hv | <-]; [ rewrite upd_ne by (pose proof (proj1 (V v Hv)); lia); exact (proj2 (V v Hv)) |].
        rewrite upd_eq by reflexivity. exact Vo2.
Qed.
Lemma clients_good cs : forall h vis h' vis', good h [] vis -> clients cs h vis = (h', vis') -> good h' [] vis'.
Proof.
  induction cs as [| c r IH]; intros h vis h' vis' G E; cbn in E.
  - injection E as <- <-. exact G.
  - destruct (client_do c h vis) as [h1 v1] eqn:E1. cbn [fst snd] in E. fold (clients r h1 v1) in E.
    apply (IH h1 v1); [| exact E ]. rewrite <- (app_nil_r v1).
    exact (proj1 (client_good c h [] vis [] h1 v1 ltac:(rewrite app_nil_r; exact G) E1)).
Qed.
Lemma good_empty : good empty [] [].
Proof. split; [ intros o Ho; cbn in Ho; lia | split; [ split; [ constructor | intros r [] ] | intros v [] ]]. Qed.
Lemma rd_write_ne o d h p : st h o <> st h p -> rd (fst (write o d h)) p = rd h p.
Proof. intros H. unfold rd, write; cbn [fst h_obj h_st]. rewrite upd_ne; [ reflexivity |]. intros E; apply H. symmetry. exact E. Qed.

Lemma run_snoc {S I O : Type} (step : S -> I -> S * O) xs : forall s x s1 os s2 o,
  run step s xs = (s1, os) -> step s1 x = (s2, o) -> run step s (xs ++ [x]) = (s2, os ++ [o]).
Proof.
  induction xs as [| y r IH]; intros s x s1 os s2 o H1 H2; cbn [run app] in *.
  - injection H1 as <- <-. now rewrite H2.
  - destruct (step s y) as [s' o']. destruct (run step s' r) as [s3 os3] eqn:E. injection H1 as <- <-.
    rewrite (IH s' x s3 os3 s2 o E H2). reflexivity.
Qed.

Section Generic.
  Context {Arg : Type} (P : pymod Arg) (S : puremod Arg) (regs sh : pm_attr P -> list nat) (rel : pm_attr P -> list data -> pu_st S -> Prop).
  Definition new_ok : Prop := forall objs h, wf h -> (forall o, In o objs -> (o < h_nobj h)%nat) ->
    let '(h1, a) := pm_new P objs h in
    newed (regs a) (sh a) h h1 /\ rel a (map (rd h1) (regs a)) (pu_new S (map (rd h) objs)).
  Definition fwd_ok : Prop := forall a arg objs h, wf h -> okr h (regs a) -> (forall o, In o (objs ++ sh a) -> away h (regs a) o) ->
    let '(h1, (a1, os)) := pm_fwd P a arg objs h in
    regs a1 = regs a /\ sh a1 = sh a /\ stepped (regs a) (sh a) h h1 objs os /\
    forall s, rel a (map (rd h) (regs a)) s ->
    exists s1, pu_step S s (arg, map (rd h) objs) = (s1, map (rd h1) os) /\ rel a1 (map (rd h1) (regs a)) s1.
  Definition fresh_ok : Prop := forall a arg objs h, wf h -> okr h (regs a) -> (forall o, In o (objs ++ sh a) -> away h (regs a) o) ->
    let '(h1, (a1, os)) := pm_fwd P a arg objs h in fresh_outs (regs a) h h1 os.

  (** Both at once. *)
  Definition fwdf_ok : Prop := forall a arg objs h, wf h -> okr h (regs a) -> (forall o, In o (objs ++ sh a) -> away h (regs a) o) ->
    let '(h1, (a1, os)) := pm_fwd P a arg objs h in
    regs a1 = regs a /\ sh a1 = sh a /\ stepped (regs a) (sh a) h h1 objs os /\
    (forall s, rel a (map (rd h) (regs a)) s ->
     exists s1, pu_step S s (arg, map (rd h) objs) = (s1, map (rd h1) os) /\ rel a1 (map (rd h1) (regs a)) s1) /\
    fresh_outs (regs a) h h1 os.
  Lemma fwdf_fwd : fwdf_ok -> fwd_ok.
  Proof.
    intros H a arg objs h W R A. specialize (H a arg objs h W R A). destruct (pm_fwd P a arg objs h) as [h1 [a1 os]].
    destruct H as [H1 [H2 [H3 [H4 _]]]]. repeat (split; [ assumption |]). exact H4.
  Qed.
  Lemma fwdf_fresh : fwdf_ok -> fresh_ok.
  Proof.
    intros H a arg objs h W R A. specialize (H a arg objs h W R A). destruct (pm_fwd P a arg objs h) as [h1 [a1 os]]. tauto.
  Qed.

  Definition inv (src : list data) (w : world (pm_attr P) Arg) : Prop :=
    good (w_heap w) (regs (w_attr w)) (w_vis w ++ sh (w_attr w)) /\
    exists s, run (pu_step S) (pu_new S src) (map (fun e => (e_arg e, e_in e)) (w_log w)) = (s, map e_out (w_log w)) /\
      rel (w_attr w) (map (rd (w_heap w)) (regs (w_attr w))) s.

  Lemma newed_good rs shs h h' vis : newed rs shs h h' -> wf h -> (forall v, In v vis -> (v < h_nobj h)%nat) ->
    good h' rs (vis ++ shs) /\ forall v, In v vis -> rd h' v = rd h v.
  Proof.
    intros E W V. split.
    - split; [ exact (n_wf _ _ _ _ E) | split; [ exact (n_regs _ _ _ _ E) |]].
      intros v Hv. apply in_app_or in Hv. destruct Hv as [Hv | Hv]; [| exact (proj2 (n_sh _ _ _ _ E v Hv)) ].
      pose proof (V v Hv) as Hl. split; [ pose proof (n_no _ _ _ _ E); lia |].
      intros Hi. apply in_map_iff in Hi. destruct Hi as [r [E2 Hr]]. pose proof (n_own _ _ _ _ E r Hr) as Ho.
      rewrite E2 in Ho. unfold st in Ho. rewrite (n_obj _ _ _ _ E v Hl) in Ho. pose proof (W v Hl). unfold st in *. lia.
    - intros v Hv. pose proof (V v Hv) as Hl. unfold rd. rewrite (n_obj _ _ _ _ E v Hl), (n_st _ _ _ _ E); [ reflexivity | exact (W v Hl) ].
  Qed.

  Lemma construct_inv h vis objs : new_ok -> good h [] vis -> (forall o, In o objs -> In o vis) ->
    inv (map (rd h) objs) (construct P h vis objs) /\ forall v, In v vis -> rd (w_heap (construct P h vis objs)) v = rd h v.
  Proof.
    intros HN [W [_ V]] Ho.
    assert (V' : forall v, In v vis -> (v < h_nobj h)%nat) by (intros v Hv; exact (proj1 (V v Hv))).
    pose proof (HN objs h W ltac:(intros o Hi; exact (V' o (Ho o Hi)))) as H.
    unfold construct. destruct (pm_new P objs h) as [h1 a]. destruct H as [E Ev].
    destruct (newed_good _ _ _ _ vis E W V') as [G K].
    split; [| exact K ]. split; cbn [w_heap w_attr w_vis w_log map]; [ exact G |]. eexists. split; [ reflexivity | exact Ev ].
  Qed.

  Lemma call_inv src w arg objs : fwd_ok -> inv src w -> (forall o, In o objs -> In o (w_vis w)) ->
    inv src (call P w arg objs).
  Proof.
    intros HF [[W [R V]] [s [E Es]]] Ho.
    assert (A : forall o, In o (objs ++ sh (w_attr w)) -> away (w_heap w) (regs (w_attr w)) o).
    { intros o Hi. apply V. apply in_app_iff in Hi. apply in_app_iff. destruct Hi as [Hi | Hi]; [ left; exact (Ho o Hi) | right; exact Hi ]. }
    pose proof (HF (w_attr w) arg objs (w_heap w) W R A) as H. unfold call.
    destruct (pm_fwd P (w_attr w) arg objs (w_heap w)) as [h1 [a1 os]]. destruct H as [E1 [E2 [T Ev]]].
    assert (VS : forall v, In v (w_vis w ++ sh (w_attr w)) -> away h1 (regs (w_attr w)) v).
    { intros v Hv. destruct (in_dec Nat.eq_dec v (sh (w_attr w))) as [Hs | Hs].
      - destruct (s_sh _ _ _ _ _ _ T v Hs) as [Eo | Aw]; [| exact Aw ].
        destruct (V v Hv) as [L Na]. split; [ pose proof (s_no _ _ _ _ _ _ T); lia |].
        unfold st at 1. rewrite Eo. intros Hi. apply in_map_iff in Hi. destruct Hi as [r [E3 Hr]].
        destruct (s_own _ _ _ _ _ _ T r Hr) as [H | H]; rewrite E3 in H; [ exact (Na H) |]. pose proof (W v L). unfold st in *. lia.
      - exact (proj1 (proj2 (away_kept _ _ _ _ _ _ v T W R (V v Hv) Hs))). }
    split; cbn [w_heap w_attr w_vis w_log]; rewrite ?E1, ?E2.
    - split; [ exact (s_wf _ _ _ _ _ _ T) | split; [ exact (s_regs _ _ _ _ _ _ T) |]].
      intros v Hv. rewrite !in_app_iff in Hv. destruct Hv as [[Hv | Hv] | Hv]; try (apply VS, in_app_iff; tauto).
      destruct (s_outs _ _ _ _ _ _ T v Hv) as [L [Hi | [Hi | [_ Na]]]].
      + apply VS, in_app_iff. left. exact (Ho v Hi).
      + apply VS, in_app_iff. now right.
      + now split.
    - rewrite !map_app. cbn [map e_arg e_in e_out]. destruct (Ev s Es) as [s1 [Ep Es1]].
      exists s1. split; [ exact (run_snoc _ _ _ _ _ _ _ _ E Ep) | exact Es1 ].
  Qed.

  Lemma act_inv src w x : fwd_ok -> inv src w -> inv src (act_do P w x).
  Proof.
    intros HF I. destruct x as [c | arg ks]; cbn [act_do].
    - destruct I as [G [s [E Es]]]. destruct (client_do c (w_heap w) (w_vis w)) as [h1 v] eqn:Ec.
      destruct (client_good _ _ _ _ _ _ _ G Ec) as [G1 [_ K]]. split; cbn [w_heap w_attr w_vis w_log]; [ exact G1 |].
      exists s. split; [ exact E |]. rewrite (map_ext_in _ (rd (w_heap w))); [ exact Es |]. intros r Hr. exact (proj2 (K r Hr)).
    - destruct (pick (w_vis w) ks) as [objs|] eqn:Ep; [| exact I ]. apply call_inv; [ exact HF | exact I | exact (pick_in _ _ _ Ep) ].
  Qed.
  Lemma history_inv h vis objs acts : new_ok -> fwd_ok -> good h [] vis -> (forall o, In o objs -> In o vis) ->
    inv (map (rd h) objs) (history P h vis objs acts).
  Proof.
    intros HN HF G Ho. unfold history. pose proof (proj1 (construct_inv h vis objs HN G Ho)) as I. revert I.
    generalize (construct P h vis objs). induction acts as [| x r IH]; intros w I; cbn [fold_left]; [ exact I |].
    apply IH, act_inv; [ exact HF | exact I ].
  Qed.

  Lemma faithful_ok : new_ok -> fwd_ok -> faithful P S.
  Proof.
    intros HN HF pre ks acts. destruct (clients pre empty []) as [h vis] eqn:Ec. intros objs Ep.
    pose proof (clients_good pre _ _ _ _ good_empty Ec) as G.
    pose proof (history_inv h vis objs acts HN HF G (pick_in _ _ _ Ep)) as [_ [s [E _]]]. cbv zeta. unfold outs. now rewrite E.
  Qed.
  Lemma undisturbed_ok : new_ok -> fwd_ok -> (forall a, sh a = []) -> undisturbed P.
  Proof.
    intros HN HF HS pre ks acts. destruct (clients pre empty []) as [h vis] eqn:Ec. intros objs Ep.
    pose proof (clients_good pre _ _ _ _ good_empty Ec) as G.
    split; [ exact (proj2 (construct_inv h vis objs HN G (pick_in _ _ _ Ep))) |]. cbv zeta. intros arg ks' objs' Ep' o Hi.
    pose proof (history_inv h vis objs acts HN HF G (pick_in _ _ _ Ep)) as [[W [R V]] _].
    set (w := history P h vis objs acts) in *. rewrite HS, app_nil_r in V.
    assert (A : forall o, In o (objs' ++ sh (w_attr w)) -> away (w_heap w) (regs (w_attr w)) o).
    { intros p Hp. rewrite HS, app_nil_r in Hp. exact (V p (pick_in _ _ _ Ep' p Hp)). }
    pose proof (HF (w_attr w) arg objs' (w_heap w) W R A) as H. unfold call.
    destruct (pm_fwd P (w_attr w) arg objs' (w_heap w)) as [h1 [a1 os]]. destruct H as [E1 [E2 [T Ev]]]. cbn [w_heap].
    rewrite HS in T. exact (proj2 (proj2 (away_kept _ _ _ _ _ _ o T W R (V o Hi) (fun x => x)))).
  Qed.
  Lemma independent_ok : new_ok -> fwd_ok -> fresh_ok -> (forall a, sh a = []) -> independent P.
  Proof.
    intros HN HF HR HS pre ks acts. destruct (clients pre empty []) as [h vis] eqn:Ec. intros objs Ep. cbv zeta. intros arg ks' objs' Ep'.
    pose proof (clients_good pre _ _ _ _ good_empty Ec) as G.
    pose proof (history_inv h vis objs acts HN HF G (pick_in _ _ _ Ep)) as [[W [R V]] _].
    set (w := history P h vis objs acts) in *. rewrite HS, app_nil_r in V.
    assert (A : forall o, In o (objs' ++ sh (w_attr w)) -> away (w_heap w) (regs (w_attr w)) o).
    { intros p Hp. rewrite HS, app_nil_r in Hp. exact (V p (pick_in _ _ _ Ep' p Hp)). }
    pose proof (HF (w_attr w) arg objs' (w_heap w) W R A) as H. pose proof (HR (w_attr w) arg objs' (w_heap w) W R A) as Fr. unfold call.
    destruct (pm_fwd P (w_attr w) arg objs' (w_heap w)) as [h1 [a1 os]]. destruct H as [E1 [E2 [T Ev]]]. destruct Fr as [N Fr]. cbn [w_heap w_vis].
    rewrite HS in T.
    assert (Old : forall v, In v (w_vis w) -> st h1 v = st (w_heap w) v /\ (st (w_heap w) v < h_nst (w_heap w))%nat /\
      ~ In (st (w_heap w) v) (map (st (w_heap w)) (regs (w_attr w)))).
    { intros v Hv. destruct (away_kept _ _ _ _ _ _ v T W R (V v Hv) (fun x => x)) as [Eo _]. unfold st at 1. rewrite Eo.
      destruct (V v Hv) as [L Na]. split; [ reflexivity | split; [ exact (W v L) | exact Na ]]. }
    intros i j o p d Ei Ej Ne Hl. apply rd_write_ne.
    destruct (Nat.lt_ge_cases i (List.length (w_vis w))) as [Li | Li], (Nat.lt_ge_cases j (List.length (w_vis w))) as [Lj | Lj]; try lia.
    - rewrite nth_error_app1 in Ei by exact Li. rewrite nth_error_app2 in Ej by exact Lj. apply nth_error_In in Ei, Ej.
      destruct (Old o Ei) as [-> [Lo No]]. destruct (Fr p Ej) as [_ [H | H]]; [ intros Eq; rewrite Eq in No; exact (No H) | lia ].
    - rewrite nth_error_app2 in Ei by exact Li. rewrite nth_error_app1 in Ej by exact Lj. apply nth_error_In in Ei, Ej.
      destruct (Old p Ej) as [-> [Lo No]]. destruct (Fr o Ei) as [_ [H | H]]; [ intros Eq; rewrite <- Eq in No; exact (No H) | lia ].
    - rewrite nth_error_app2 in Ei by exact Li. rewrite nth_error_app2 in Ej by exact Lj.
      intros Eq. apply Ne. apply (map_nth_error (st h1)) in Ei, Ej.
      assert (i - List.length (w_vis w) = j - List.length (w_vis w))%nat; [| lia ].
      apply (proj1 (NoDup_nth_error (map (st h1) os)) N); [ apply nth_error_Some; congruence | congruence ].
  Qed.
  Lemma isolated_ok : new_ok -> fwdf_ok -> (forall a, sh a = []) -> isolated P S.
  Proof.
    intros HN HF HS. pose proof (fwdf_fwd HF) as H1. pose proof (fwdf_fresh HF) as H2.
    split; [ now apply faithful_ok | split; [ now apply undisturbed_ok | now apply independent_ok ]].
  Qed.
End Generic.
