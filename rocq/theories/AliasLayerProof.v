(** Proofs for C92: a layer that shares the storage of the weights it was given, and the concrete scripts for the refutations. *)
Require Import Verif.BaseLemmas Verif.AliasSpec Verif.AliasProof Verif.AliasModProof.
Open Scope Z_scope.

Lemma client_nodup c h vis : (forall v, In v vis -> (v < h_nobj h)%nat) -> NoDup vis ->
  let '(h', vis') := client_do c h vis in
  (h_nobj h <= h_nobj h')%nat /\ (forall v, In v vis' -> (v < h_nobj h')%nat) /\ NoDup vis' /\ (exists l, vis' = vis ++ l /\ forall v, In v l -> (h_nobj h <= v)%nat).
Proof.
  intros V N.
  assert (Same : forall h', h_nobj h' = h_nobj h -> (h_nobj h <= h_nobj h')%nat /\ (forall v, In v vis -> (v < h_nobj h')%nat) /\ NoDup vis /\ (exists l, vis = vis ++ l /\ forall v, In v l -> (h_nobj h <= v)%nat)).
  { intros h' E. rewrite E. split; [ lia | split; [ exact V | split; [ exact N | exists []; split; [ now rewrite app_nil_r | intros v [] ] ]]]. }
  assert (More : forall h', h_nobj h' = S (h_nobj h) -> (h_nobj h <= h_nobj h')%nat /\ (forall v, In v (vis ++ [h_nobj h]) -> (v < h_nobj h')%nat) /\
    NoDup (vis ++ [h_nobj h]) /\ (exists l, vis ++ [h_nobj h] = vis ++ l /\ forall v, In v l -> (h_nobj h <= v)%nat)).
  { intros h' E. rewrite E. split; [ lia | split; [| split; [| eexists; split; [ reflexivity | intros v [<- | []]; lia ] ]]].
    - intros v Hv. apply in_app_iff in Hv. destruct Hv as [Hv | [<- | []]]; [ pose proof (V v Hv); lia | lia ].
    - apply (NoDup_Add (a := h_nobj h) (l := vis)); [| split; [ exact N | intros Hi; pose proof (V _ Hi); lia ]].
      rewrite <- (app_nil_r vis) at 1. apply Add_app. }
  destruct c as [d t | k d | k l | k i]; cbn [client_do].
  - unfold alloc. apply More. reflexivity.
  - destruct (nth_error vis k); apply Same; reflexivity.
  - destruct (nth_error vis k), (nth_error vis l); apply Same; reflexivity.
  - destruct (nth_error vis k) as [o|]; [ destruct (o_row (h_obj h o)) |]; try (apply Same; reflexivity). unfold view. apply More. reflexivity.
Qed.
Lemma clients_nodup cs : forall h vis, (forall v, In v vis -> (v < h_nobj h)%nat) -> NoDup vis ->
  let '(h', vis') := clients cs h vis in (forall v, In v vis' -> (v < h_nobj h')%nat) /\ NoDup vis'.
Proof.
  induction cs as [| c r IH]; intros h vis V N; cbn; [ now split |]. pose proof (client_nodup c h vis V N) as H.
  destruct (client_do c h vis) as [h1 v1]. destruct H as [_ [H1 [H2 _]]]. cbn [fst snd]. exact (IH h1 v1 H1 H2).
Qed.

(** What a client action leaves alone. *)
Lemma client_obj c h vis o : (forall v, In v vis -> (v < h_nobj h)%nat) -> (o < h_nobj h)%nat ->
  (forall k l, c = CPoint k l -> nth_error vis k <> Some o) ->
  let '(h', _) := client_do c h vis in h_obj h' o = h_obj h o.
Proof.
  intros V L K. destruct c as [d t | k d | k l | k i]; cbn [client_do].
  - unfold alloc. cbn [h_obj]. apply upd_ne. lia.
  - destruct (nth_error vis k); reflexivity.
  - specialize (K k l eq_refl). destruct (nth_error vis k) as [p|]; [ destruct (nth_error vis l) |]; try reflexivity.
    cbn [fst set_data h_obj]. apply upd_ne. congruence.
  - destruct (nth_error vis k) as [p|]; [ destruct (o_row (h_obj h p)) |]; try reflexivity. unfold view. cbn [h_obj]. apply upd_ne. lia.
Qed.

Section Hub.
  Variables (f : data -> data -> data) (cm : mode) (meth : clip_method) (bw : nat).
  Let P := layer_py hub_new f cm meth bw.
  Variables (o k : nat) (b0 : obj).
  Record hub_inv (r : nat) (w : world (pm_attr P) bool) : Prop := {
    hi_attr : w_attr w = Some r; hi_r : (r < h_nobj (w_heap w))%nat; hi_rv : ~ In r (w_vis w);
    hi_b : h_obj (w_heap w) r = b0; hi_o : h_obj (w_heap w) o = b0; hi_k : nth_error (w_vis w) k = Some o;
    hi_v : forall v, In v (w_vis w) -> (v < h_nobj (w_heap w))%nat; hi_n : NoDup (w_vis w);
    hi_wf : wf (w_heap w)
  }.
  Lemma hub_call_true r w x : hub_inv r w -> In x (w_vis w) ->
    let w' := call P w true [x] in
    w_heap w' = hall (f (rd (w_heap w) o) (rd (w_heap w) x)) Flt (w_heap w) /\
    w_log w' = w_log w ++ [{| e_arg := true; e_in := [rd (w_heap w) x]; e_out := [f (rd (w_heap w) o) (rd (w_heap w) x)] |}] /\
    w_vis w' = w_vis w ++ [h_nobj (w_heap w)] /\ w_attr w' = Some r.
  Proof.
    intros I Hx. destruct I. unfold call. rewrite hi_attr0. cbn [P pm_fwd layer_py one_in]. unfold keep, layer_fwd.
    rewrite bind_bind, bind_look, bind_bind, bind_look, bind_alloc. cbn [ret map w_heap w_log w_vis w_attr].
    rewrite rd_hall_n by reflexivity.
    assert (E : rd (w_heap w) r = rd (w_heap w) o) by (unfold rd; rewrite hi_b0, hi_o0; reflexivity).
    rewrite E. repeat split.
  Qed.
  Lemma hub_call_false r w objs : hub_inv r w ->
    let w' := call P w false objs in
    w_heap w' = hwr r (Qs (clip_value cm meth bw (toQs (rd (w_heap w) o)))) (w_heap w) /\ w_vis w' = w_vis w /\ w_attr w' = Some r.
  Proof.
    intros I. destruct I. unfold call. rewrite hi_attr0. cbn [P pm_fwd layer_py]. unfold clip_weight.
    rewrite bind_bind, bind_look. rewrite bind_write.
    assert (E : rd (w_heap w) r = rd (w_heap w) o) by (unfold rd; rewrite hi_b0, hi_o0; reflexivity).
    rewrite E. cbn [ret w_heap w_vis w_attr]. rewrite app_nil_r. repeat split.
  Qed.
  Lemma hub_call_other r w x objs : hub_inv r w -> length objs <> 1%nat -> x = true ->
    let w' := call P w x objs in w_heap w' = w_heap w /\ w_vis w' = w_vis w /\ w_attr w' = Some r.
  Proof.
    intros I L ->. destruct I. unfold call. rewrite hi_attr0. cbn [P pm_fwd layer_py]. unfold one_in.
    destruct objs as [| x [| y l]]; [| now elim L |]; cbn [ret w_heap w_vis w_attr]; rewrite app_nil_r; repeat split.
  Qed.
  Lemma hub_act r w x : hub_inv r w -> (forall l, x <> Do (CPoint k l)) -> hub_inv r (act_do P w x).
  Proof.
    intros I Nx. destruct x as [c | arg ks]; cbn [act_do].
    - destruct I. pose proof (client_nodup c _ _ hi_v0 hi_n0) as H.
      pose proof (client_obj c (w_heap w) (w_vis w) r hi_v0 hi_r0) as Hr.
      assert (Lo : (o < h_nobj (w_heap w))%nat) by (apply hi_v0; apply (nth_error_In _ _ hi_k0)).
      pose proof (client_obj c (w_heap w) (w_vis w) o hi_v0 Lo) as Ho.
      assert (G : good (w_heap w) [] (w_vis w ++ [])).
      { split; [ exact hi_wf0 | split; [ split; [ constructor | intros ? [] ] |]]. intros v Hv. rewrite app_nil_r in Hv. split; [ exact (hi_v0 v Hv) | intros [] ]. }
      pose proof (client_good c (w_heap w) [] (w_vis w) []) as HG.
      destruct (client_do c (w_heap w) (w_vis w)) as [h1 v1]. destruct H as [H1 [H2 [H3 [l [-> H4]]]]].
      specialize (HG h1 _ G eq_refl). destruct HG as [[HG _] _].
      constructor; cbn [w_attr w_heap w_vis]; try assumption.
      + lia.
      + intros Hi. apply in_app_iff in Hi. destruct Hi as [Hi | Hi]; [ exact (hi_rv0 Hi) |].
        pose proof (H4 r Hi). lia.
      + rewrite Hr; [ exact hi_b0 |]. intros k' l' _ E. apply hi_rv0, (nth_error_In _ _ E).
      + rewrite Ho; [ exact hi_o0 |]. intros k' l' -> E. assert (k' = k); [| subst k'; exact (Nx l' eq_refl) ].
        apply (proj1 (NoDup_nth_error (w_vis w)) hi_n0); [ apply nth_error_Some; congruence | congruence ].
      + rewrite nth_error_app1; [ exact hi_k0 | apply nth_error_Some; congruence ].
    - destruct (pick (w_vis w) ks) as [objs|] eqn:Ep; [| exact I ].
      destruct arg.
      + destruct (Nat.eq_dec (length objs) 1) as [L | L].
        * destruct objs as [| x [| y l]]; try discriminate L. pose proof (pick_in _ _ _ Ep x (or_introl eq_refl)) as Hx.
          destruct (hub_call_true r w x I Hx) as [E1 [_ [E2 E3]]]. destruct I.
          assert (Lo : (o < h_nobj (w_heap w))%nat) by (apply hi_v0; apply (nth_error_In _ _ hi_k0)).
          constructor; rewrite ?E1, ?E2, ?E3, ?nobj_hall; try reflexivity.
          -- lia.
          -- intros Hi. apply in_app_iff in Hi. destruct Hi as [Hi | [<- | []]]; [ exact (hi_rv0 Hi) | lia ].
          -- rewrite obj_hall by lia. exact hi_b0.
          -- rewrite obj_hall by lia. exact hi_o0.
          -- rewrite nth_error_app1; [ exact hi_k0 | apply nth_error_Some; congruence ].
          -- intros v Hv. apply in_app_iff in Hv. destruct Hv as [Hv | [<- | []]]; [ pose proof (hi_v0 v Hv); lia | lia ].
          -- apply (NoDup_Add (a := h_nobj (w_heap w)) (l := w_vis w)); [| split; [ exact hi_n0 | intros Hi; pose proof (hi_v0 _ Hi); lia ]].
             rewrite <- (app_nil_r (w_vis w)) at 1. apply Add_app.
          -- now apply wf_hall.
        * destruct (hub_call_other r w true objs I L eq_refl) as [E1 [E2 E3]]. destruct I. constructor; rewrite ?E1, ?E2, ?E3; trivial.
      + destruct (hub_call_false r w objs I) as [E1 [E2 E3]]. destruct I. constructor; rewrite ?E1, ?E2, ?E3, ?nobj_hwr, ?obj_hwr; trivial; now apply wf_hwr.
  Qed.
  Lemma hub_history r acts : forall w, hub_inv r w -> (forall l, ~ In (Do (CPoint k l)) acts) -> hub_inv r (fold_left (act_do P) acts w).
  Proof.
    induction acts as [| x l IH]; intros w I N; cbn [fold_left]; [ exact I |]. apply IH.
    - apply hub_act; [ exact I |]. intros l' ->. exact (N l' (or_introl eq_refl)).
    - intros l' H. exact (N l' (or_intror H)).
  Qed.
  Lemma hub_construct h vis : wf h -> (forall v, In v vis -> (v < h_nobj h)%nat) -> NoDup vis -> nth_error vis k = Some o -> h_obj h o = b0 ->
    hub_inv (h_nobj h) (construct P h vis [o]) /\ forall p, In p vis -> rd (w_heap (construct P h vis [o])) p = rd h p.
  Proof.
    intros W V N K B. unfold construct. cbn [P pm_new layer_py]. unfold hub_new. rewrite bind_bind, bind_alloc, bind_bind, bind_set, bind_ret.
    cbn [ret w_heap]. assert (Lo : (o < h_nobj h)%nat) by (apply V; apply (nth_error_In _ _ K)).
    split.
    - constructor; cbn [w_attr w_heap w_vis]; try assumption; rewrite ?nobj_hsd, ?nobj_hall; try lia; try reflexivity.
      + intros Hi. pose proof (V _ Hi). lia.
      + rewrite obj_hsd_n. rewrite obj_hall by lia. exact B.
      + rewrite obj_hsd by lia. rewrite obj_hall by lia. exact B.
      + intros v Hv. pose proof (V v Hv). lia.
      + apply wf_hsd; [ now apply wf_hall | rewrite nobj_hall; lia ].
    - intros p Hp. pose proof (V p Hp) as L. pose proof (W p L) as Wp. unfold st in Wp. rewrite rd_hsd by lia. rewrite rd_hall by lia. reflexivity.
  Qed.
End Hub.

Lemma hub_shares f cm meth bw pre k acts :
  let P := layer_py hub_new f cm meth bw in
  let '(h, vis) := clients pre empty [] in
  forall o, nth_error vis k = Some o -> (forall l, ~ In (Do (CPoint k l)) acts) ->
  (forall p, In p vis -> rd (w_heap (construct P h vis [o])) p = rd h p) /\
  let w := history P h vis [o] acts in let h1 := w_heap w in
  (forall x, In x (w_vis w) -> let w' := call P w true [x] in
     map e_out (w_log w') = map e_out (w_log w) ++ [[f (rd h1 o) (rd h1 x)]] /\
     forall p, In p (w_vis w) -> rd (w_heap w') p = rd h1 p) /\
  (forall objs, let w' := call P w false objs in
     let '(h2, _) := client_do (CWrite k (Qs (clip_value cm meth bw (toQs (rd h1 o))))) h1 (w_vis w) in
     w_vis w' = w_vis w /\ forall p, In p (w_vis w) -> rd (w_heap w') p = rd h2 p).
Proof.
  intros P. destruct (clients pre empty []) as [h vis] eqn:Ec. intros o Ek Na.
  pose proof (clients_good pre _ _ _ _ good_empty Ec) as [W [_ V]].
  pose proof (clients_nodup pre empty [] ltac:(intros v []) ltac:(constructor)) as N. rewrite Ec in N. destruct N as [V' N].
  destruct (hub_construct f cm meth bw o k (h_obj h o) h vis W V' N Ek eq_refl) as [I K]. fold P in I, K.
  split; [ exact K |]. cbv zeta.
  pose proof (hub_history f cm meth bw o k (h_obj h o) (h_nobj h) acts _ I Na) as J. fold P in J. fold (history P h vis [o] acts) in J.
  set (w := history P h vis [o] acts) in *. split.
  - intros x Hx. destruct (hub_call_true f cm meth bw o k (h_obj h o) _ w x J Hx) as [E1 [E2 _]]. fold P in E1, E2. rewrite E1, E2.
    split; [ now rewrite map_app |]. intros p Hp. pose proof (hi_v _ _ _ _ _ _ _ _ _ J p Hp) as L. pose proof (hi_wf _ _ _ _ _ _ _ _ _ J p L) as Wp.
    unfold st in Wp. apply rd_hall; [ exact (Nat.lt_neq _ _ L) | exact (Nat.lt_neq _ _ Wp) ].
  - intros objs. destruct (hub_call_false f cm meth bw o k (h_obj h o) _ w objs J) as [E1 [E2 _]]. fold P in E1, E2.
    assert (Kk : nth_error (w_vis w) k = Some o) by exact (hi_k _ _ _ _ _ _ _ _ _ J).
    cbn [client_do]. rewrite Kk. split; [ exact E2 |]. intros p Hp. rewrite E1.
    assert (Eb : h_obj (w_heap w) (h_nobj h) = h_obj h o) by exact (hi_b _ _ _ _ _ _ _ _ _ J).
    assert (Eo : h_obj (w_heap w) o = h_obj h o) by exact (hi_o _ _ _ _ _ _ _ _ _ J).
    unfold hwr, rd, write. cbn [fst h_obj h_st]. rewrite Eb, Eo. reflexivity.
Qed.

(** Two layers built from one tensor. *)
Lemma hub_twice f cm meth bw h o x : wf h -> (o < h_nobj h)%nat -> (x < h_nobj h)%nat -> o_row (h_obj h o) = None -> st h x <> st h o ->
  let '(h1, (a, b)) := bindM (hub_new o) (fun a => bindM (hub_new o) (fun b => ret (a, b))) h in
  let w' := Qs (clip_value cm meth bw (toQs (rd h o))) in
  let '(h2, y) := bindM (clip_weight cm meth bw a) (fun _ => layer_fwd f b x) h1 in
  rd h2 y = f w' (rd h x) /\ rd h2 o = w'.
Proof.
  intros W Lo Lx Ro Ne. pose proof (W o Lo) as Wo. pose proof (W x Lx) as Wx. unfold st in *.
  unfold hub_new. rewrite !bind_bind, bind_alloc, !bind_bind, bind_set, bind_ret, !bind_bind, bind_alloc, !bind_bind, bind_set, !bind_ret. cbn [ret].
  unfold clip_weight. rewrite !bind_bind, bind_look, bind_write. unfold layer_fwd. rewrite !bind_look. rewrite <- (bind_ret2 (alloc _ _)), bind_alloc. cbn [ret].
  split; rds; reflexivity.
Qed.
