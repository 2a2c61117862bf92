(** Proofs about the tensor models: every element evolves as if processed alone. *)
Require Import Verif.BaseLemmas Verif.TensorModel Verif.TensorSpec.
Open Scope Z_scope.

(** ** Broadcasting *)
(** A tensor of shape [s] can be expanded to shape [r]. *)
Fixpoint bto (s r : shape) : Prop :=
  match s, r with
  | [], _ => True
  | a :: s', b :: r' => (a = 1%nat \/ a = b) /\ bto s' r'
  | _ :: _, [] => False
  end.

Lemma bdim_spec a b d : bdim a b = Some d -> (a = 1%nat \/ a = d) /\ (b = 1%nat \/ b = d) /\ (d = a \/ d = b).
Proof.
  unfold bdim. destruct (Nat.eqb_spec a b); [intros [= <-]; auto|].
  destruct (Nat.eqb_spec a 1); [intros [= <-]; auto|]. destruct (Nat.eqb_spec b 1); [intros [= <-]; auto|discriminate].
Qed.
Lemma bdim_comm a b : bdim a b = bdim b a.
Proof.
  unfold bdim. rewrite (Nat.eqb_sym b a). destruct (Nat.eqb_spec a b) as [->|]; [reflexivity|].
  destruct (Nat.eqb_spec a 1), (Nat.eqb_spec b 1); subst; reflexivity || congruence.
Qed.
Lemma bdim_to a b : (a = 1%nat \/ a = b) -> bdim a b = Some b.
Proof.
  unfold bdim. destruct (Nat.eqb_spec a b); [subst; reflexivity|]. intros [->|]; [reflexivity|congruence].
Qed.
Lemma bshape_nil_r s : bshape s [] = Some s. Proof. destruct s; reflexivity. Qed.
Lemma bshape_comm s : forall t, bshape s t = bshape t s.
Proof.
  induction s as [|a s IH]; intros [|b t]; cbn [bshape]; try reflexivity. rewrite bdim_comm, IH. reflexivity.
Qed.
Lemma bto_refl s : bto s s. Proof. induction s; cbn; auto. Qed.
Lemma bshape_bto s : forall t r, bshape s t = Some r -> bto s r /\ bto t r.
Proof.
  induction s as [|a s IH]; intros t r H.
  - cbn in H. injection H as <-. split; [exact Logic.I|apply bto_refl].
  - destruct t as [|b t]; [injection H as <-; split; [apply (bto_refl (a :: s))|exact Logic.I]|]. cbn [bshape] in H.
    destruct (bdim a b) as [d|] eqn:E; [|discriminate]. destruct (bshape s t) as [r'|] eqn:E'; [|discriminate]. injection H as <-.
    apply bdim_spec in E. destruct E as (Ha & Hb & _). destruct (IH t r' E') as [H1 H2]. cbn [bto]. auto.
Qed.
Lemma bto_bshape s : forall r, bto s r -> bshape s r = Some r.
Proof.
  induction s as [|a s IH]; intros [|b r] H; try reflexivity; [destruct H|]. destruct H as [Ha Hs]. cbn [bshape].
  rewrite bdim_to by exact Ha. rewrite IH by exact Hs. reflexivity.
Qed.
Lemma bto_trans s : forall r q, bto s r -> bto r q -> bto s q.
Proof.
  induction s as [|a s IH]; intros [|b r] [|c q] H1 H2; cbn in *; auto; try contradiction.
  destruct H1 as [Ha Hs], H2 as [Hb Hr]. split; [|exact (IH _ _ Hs Hr)]. destruct Ha as [->| ->]; auto.
Qed.
Lemma bidx_bidx s : forall r i, bto s r -> bidx s (bidx r i) = bidx s i \/ (length i < length r)%nat.
Proof.
  induction s as [|a s IH]; intros [|b r] i H; cbn [bto] in H; try contradiction; [left; reflexivity|left; reflexivity|].
  destruct i as [|j i]; [right; cbn; lia|]. destruct H as [Ha Hs]. destruct (IH r i Hs) as [E|L]; [left|right; cbn; lia].
  cbn [bidx]. rewrite E. f_equal. destruct (Nat.eqb_spec a 1) as [|N1]; [reflexivity|]. destruct Ha as [|Ha]; [congruence|]. subst b.
  destruct (Nat.eqb_spec a 1); [congruence|reflexivity].
Qed.
Lemma valid_length s : forall i, valid s i -> length i = length s.
Proof. induction s as [|d s IH]; intros [|j i] H; cbn in *; try contradiction; [reflexivity|]. destruct H. f_equal. auto. Qed.
Lemma bto_length s : forall r, bto s r -> (length s <= length r)%nat.
Proof. induction s as [|a s IH]; intros [|b r] H; cbn in *; try contradiction; try lia. destruct H as [_ H]. apply IH in H. lia. Qed.
Lemma bidx_comp s r q i : bto s r -> bto r q -> valid q i -> bidx s (bidx r i) = bidx s i.
Proof.
  intros Hs Hr Hv. destruct (bidx_bidx s r i Hs) as [E|L]; [exact E|]. apply valid_length in Hv. apply bto_length in Hr. lia.
Qed.
Lemma bidx_valid s : forall r i, bto s r -> valid r i -> valid s (bidx s i).
Proof.
  induction s as [|a s IH]; intros [|b r] [|j i] H Hv; cbn in *; try contradiction; auto.
  destruct H as [Ha Hs], Hv as [Hj Hi]. split; [|exact (IH _ _ Hs Hi)].
  destruct (Nat.eqb_spec a 1) as [->|]; [lia|]. destruct Ha as [|Ha]; [congruence|]. subst. exact Hj.
Qed.
Lemma bidx_id s : forall i, valid s i -> bidx s i = i.
Proof.
  induction s as [|a s IH]; intros [|j i] H; cbn in *; try contradiction; [reflexivity|]. destruct H as [Hj Hi].
  rewrite IH by exact Hi. f_equal. destruct (Nat.eqb_spec a 1); lia.
Qed.
Lemma shape_eqb_spec s : forall t, shape_eqb s t = true <-> s = t.
Proof.
  induction s as [|a s IH]; intros [|b t]; cbn; try (split; [discriminate|discriminate]); [split; reflexivity|].
  rewrite andb_true_iff, Nat.eqb_eq, IH. split; [intros [-> ->]; reflexivity|intros [= -> ->]; auto].
Qed.
Lemma shape_eqb_refl s : shape_eqb s s = true. Proof. apply shape_eqb_spec. reflexivity. Qed.

(** Two-tensor operations with the shapes known. *)
Lemma tmap2_ok {A B C} (f : A -> B -> C) a b s : bshape (shp a) (shp b) = Some s ->
  exists c, tmap2 f a b = Ok c /\ shp c = s /\ forall i, elt c i = f (elt a (bidx (shp a) i)) (elt b (bidx (shp b) i)).
Proof. intros H. unfold tmap2. rewrite H. eexists. split; [reflexivity|]. split; reflexivity. Qed.
Lemma tmap2_err {A B C} (f : A -> B -> C) a b : bshape (shp a) (shp b) = None -> tmap2 f a b = Err RuntimeError.
Proof. intros H. unfold tmap2. rewrite H. reflexivity. Qed.
(** Second operand expands to the first's shape, and the other way round. *)
Lemma tmap2_l {A B C} (f : A -> B -> C) a b : bto (shp b) (shp a) ->
  exists c, tmap2 f a b = Ok c /\ tmap2_ f a b = Ok c /\ shp c = shp a /\
    forall i, valid (shp a) i -> elt c i = f (elt a i) (elt b (bidx (shp b) i)).
Proof.
  intros H. pose proof (bto_bshape _ _ H) as E. rewrite bshape_comm in E.
  unfold tmap2_, tmap2. rewrite E. cbn [bind shp]. rewrite shape_eqb_refl. eexists. split; [reflexivity|]. split; [reflexivity|].
  split; [reflexivity|]. intros i Hi. cbn [elt]. rewrite bidx_id by exact Hi. reflexivity.
Qed.
Lemma tmap2_r {A B C} (f : A -> B -> C) a b : bto (shp a) (shp b) ->
  exists c, tmap2 f a b = Ok c /\ shp c = shp b /\ forall i, valid (shp b) i -> elt c i = f (elt a (bidx (shp a) i)) (elt b i).
Proof.
  intros H. pose proof (bto_bshape _ _ H) as E.
  unfold tmap2. rewrite E. eexists. split; [reflexivity|]. split; [reflexivity|].
  intros i Hi. cbn [elt]. rewrite (bidx_id (shp b)) by exact Hi. reflexivity.
Qed.

Lemma at1_comp {A} (x : tensor A) sh q i : bto (shp x) sh -> bto sh q -> valid q i -> at1 x (bidx sh i) = at1 x i.
Proof. intros H1 H2 Hv. unfold at1. rewrite (bidx_comp _ sh q) by assumption. reflexivity. Qed.
Lemma at2_comp {A B} (x : tensor A * tensor B) sx sh q i : shape2 x = Some sx -> bto sx sh -> bto sh q -> valid q i ->
  at2 x (bidx sh i) = at2 x i.
Proof.
  intros H H1 H2 Hv. unfold shape2 in H. apply bshape_bto in H. destruct H as [Ha Hb]. unfold at2.
  rewrite (at1_comp (fst x) sh q), (at1_comp (snd x) sh q) by (try assumption; eapply bto_trans; eassumption). reflexivity.
Qed.

(** ** The lifting theorem *)
Section Lift.
  Context {TX TY X Y TS S : Type}.
  Variables (xshape : TX -> option shape) (xat : TX -> index -> X) (yok : shape -> TY -> Prop) (yat : TY -> index -> Y).
  Variables (T : TS -> TX -> result (TS * TY)) (f : S -> X -> S * Y).
  Variables (sshape : TS -> shape) (sat : TS -> index -> S).

  Variable ok : TX -> Prop.
  Definition step_ok : Prop := forall st x, sshape st <> [] -> ok x ->
    match xshape x with
    | None => T st x = Err RuntimeError
    | Some sx =>
        match bshape (sshape st) sx with
        | None => T st x = Err RuntimeError
        | Some sh => exists st' y, T st x = Ok (st', y) /\ sshape st' = sh /\ yok sh y /\
            forall i, valid sh i -> (sat st' i, yat y i) = f (sat st (bidx (sshape st) i)) (xat x i)
        end
    end.
  Definition xat_ok : Prop := forall x sx sh q i, xshape x = Some sx -> bto sx sh -> bto sh q -> valid q i -> xat x (bidx sh i) = xat x i.

  Hypothesis Hstep : step_ok.
  Hypothesis Hxat : xat_ok.

  Lemma bto_nonempty s r : bto s r -> s <> [] -> r <> [].
  Proof. destruct s, r; cbn; congruence || contradiction. Qed.

  Lemma hshape_bto xs : forall s sh, hshape xshape s xs = Some sh -> bto s sh.
  Proof.
    induction xs as [|x xs IH]; intros s sh H; cbn [hshape] in H; [injection H as <-; apply bto_refl|].
    destruct (xshape x) as [sx|]; [|discriminate]. destruct (bshape s sx) as [s'|] eqn:E; [|discriminate].
    apply IH in H. apply bshape_bto in E. exact (bto_trans _ _ _ (proj1 E) H).
  Qed.

  Lemma lift_err xs : Forall ok xs -> forall st, sshape st <> [] -> hshape xshape (sshape st) xs = None -> run_r T st xs = Err RuntimeError.
  Proof.
    induction xs as [|x xs IH]; intros Ho st Hn H; [discriminate|]. cbn [hshape run_r] in *.
    pose proof (Hstep st x Hn (Forall_inv Ho)) as E. apply Forall_inv_tail in Ho. destruct (xshape x) as [sx|]; [|rewrite E; reflexivity].
    destruct (bshape (sshape st) sx) as [s'|] eqn:Eb; [|rewrite E; reflexivity].
    destruct E as (st' & y & -> & Es & _). subst s'. apply bshape_bto in Eb. destruct Eb as [Eb _].
    rewrite (IH Ho); [reflexivity|exact (bto_nonempty _ _ Eb Hn)|exact H].
  Qed.

  Lemma lift_ok xs : Forall ok xs -> forall st sh, sshape st <> [] -> hshape xshape (sshape st) xs = Some sh ->
    exists st' ys, run_r T st xs = Ok (st', ys) /\ length ys = length xs /\
    sshape st' = sh /\
    (forall i, valid sh i -> sat st' i = final f (sat st (bidx (sshape st) i)) (map (fun x => xat x i) xs)) /\
    forall t y, nth_error ys t = Some y ->
    exists sht, hshape xshape (sshape st) (firstn (Datatypes.S t) xs) = Some sht /\ yok sht y /\
    forall i, valid sht i -> nth_error (outs f (sat st (bidx (sshape st) i)) (map (fun x => xat x i) xs)) t = Some (yat y i).
  Proof.
    induction xs as [|x xs IH]; intros Ho st sh Hn H.
    - cbn in H. injection H as <-. exists st, []. split; [reflexivity|]. split; [reflexivity|]. split; [reflexivity|].
      split; [intros i Hi; cbn; rewrite bidx_id by exact Hi; reflexivity|]. intros [|t] y Hy; discriminate.
    - cbn [hshape run_r] in *. pose proof (Hstep st x Hn (Forall_inv Ho)) as E. apply Forall_inv_tail in Ho. destruct (xshape x) as [sx|] eqn:Ex; [|discriminate].
      destruct (bshape (sshape st) sx) as [s1|] eqn:Eb; [|discriminate].
      destruct E as (st1 & y & -> & Es & Hy & Hf). subst s1. pose proof (bshape_bto _ _ _ Eb) as [Eb1 Eb2].
      destruct (IH Ho st1 sh (bto_nonempty _ _ Eb1 Hn) H) as (st' & ys & -> & Hl & Hs & Hst & Hys). 
      pose proof (hshape_bto _ _ _ H) as Hto.
      assert (Lane : forall q i, bto (sshape st1) q -> valid q i ->
        sat st1 (bidx (sshape st1) i) = fst (f (sat st (bidx (sshape st) i)) (xat x i))).
      { intros q i Hq Hi. pose proof (Hf (bidx (sshape st1) i) (bidx_valid _ _ _ Hq Hi)) as E1. apply (f_equal fst) in E1. cbn [fst] in E1.
        rewrite E1. rewrite (bidx_comp _ _ q) by assumption. rewrite (Hxat x sx (sshape st1) q) by assumption. reflexivity. }
      exists st', (y :: ys). split; [reflexivity|]. split; [cbn; lia|]. split; [exact Hs|]. split.
      + intros i Hi. rewrite (Hst i Hi). cbn [map]. rewrite final_cons, <- (Lane sh i Hto Hi). reflexivity.
      + intros [|t] y' Hy'.
        * cbn in Hy'. injection Hy' as <-. exists (sshape st1). cbn [firstn hshape]. rewrite Ex, Eb. split; [reflexivity|].
          split; [exact Hy|]. intros i Hi. cbn [map]. rewrite outs_cons. cbn [nth_error]. rewrite <- (Hf i Hi). reflexivity.
        * cbn [nth_error] in Hy'. destruct (Hys t y' Hy') as (sht & Ht & Hok & Hat). exists sht.
          split; [change (firstn (Datatypes.S (Datatypes.S t)) (x :: xs)) with (x :: firstn (Datatypes.S t) xs); cbn [hshape]; rewrite Ex, Eb; exact Ht|].
          split; [exact Hok|]. intros i Hi. cbn [map]. rewrite outs_cons. cbn [nth_error].
          rewrite <- (Lane sht i (hshape_bto _ _ _ Ht) Hi). exact (Hat i Hi).
  Qed.

  Lemma lift_on st0 s0 : sshape st0 = [1%nat] -> (forall i, sat st0 i = s0) ->
    forall xs, Forall ok xs -> lanewise_on xshape xat yok yat T st0 f s0 xs.
  Proof.
    intros Es Hs xs Ho. unfold lanewise_on. assert (Hn : sshape st0 <> []) by (rewrite Es; discriminate).
    destruct (hshape xshape [1%nat] xs) as [sh|] eqn:E; rewrite <- Es in E.
    - destruct (lift_ok xs Ho st0 sh Hn E) as (st & ys & Hr & Hl & _ & _ & Hy). exists st, ys. split; [exact Hr|]. split; [exact Hl|].
      intros t y Hty. destruct (Hy t y Hty) as (sht & Ht & Hok & Hat). exists sht. rewrite <- Es. split; [exact Ht|]. split; [exact Hok|].
      intros i Hi. rewrite <- (Hat i Hi), Hs. reflexivity.
    - exact (lift_err xs Ho st0 Hn E).
  Qed.
End Lift.

Definition always {A : Type} (_ : A) : Prop := True.
Lemma lift {TX TY X Y TS S : Type} xshape xat yok yat (T : TS -> TX -> result (TS * TY)) (f : S -> X -> S * Y) sshape sat :
  @step_ok TX TY X Y TS S xshape xat yok yat T f sshape sat always -> xat_ok xshape xat ->
  forall st0 s0, sshape st0 = [1%nat] -> (forall i, sat st0 i = s0) -> lanewise xshape xat yok yat T st0 f s0.
Proof.
  intros Hs Hx st0 s0 E1 E2 xs. apply (lift_on _ _ _ _ _ _ _ _ _ Hs Hx _ _ E1 E2). apply Forall_forall. intros x _. exact Logic.I.
Qed.

Lemma at1_xat {A} : xat_ok (@shape1 A) at1.
Proof. intros x sx sh q i H. injection H as <-. apply at1_comp. Qed.
Lemma at2_xat {A B} : xat_ok (@shape2 A B) at2.
Proof. intros x sx sh q i H H1 H2 Hv. eapply at2_comp; eassumption. Qed.

(** ** The kernels *)
Lemma tone_to (s : shape) : s <> [] -> bto [1%nat] s.
Proof. destruct s; [congruence|]. intros _. cbn. auto. Qed.

Lemma relu_step_ok d : step_ok shape1 at1 out1 oat1 (fsurelu_t d) (fsurelu_step d) shp elt always.
Proof.
  intros acc x Hn _. unfold shape1. destruct (bshape (shp acc) (shp x)) as [sh|] eqn:E; rewrite bshape_comm in E.
  2:{ unfold fsurelu_t. rewrite tmap2_err by exact E. reflexivity. }
  unfold fsurelu_t.
  destruct (tmap2_ok Z.lor x (tmap (fun h => 1 - h) (tmap (fun a => b2z (a >=? p2 d)) acc)) sh E) as (o & -> & So & Eo). cbn [bind].
  destruct (bshape_bto _ _ _ E) as [Bx Ba].
  destruct (tmap2_r Z.add acc (tmap (fun o => o * 2 - 1) o)) as (a1 & -> & Sa & Ea); [cbn [shp tmap]; rewrite So; exact Ba|].
  cbn [bind]. cbn [shp tmap] in Sa, Ea. rewrite So in *. do 2 eexists. split; [reflexivity|]. split; [exact Sa|]. split; [exact So|].
  intros i Hi. cbn [elt tmap]. rewrite (Ea i Hi). cbn [elt tmap]. unfold oat1. rewrite (Eo i). reflexivity.
Qed.
Lemma relu_lanes d : lanewise shape1 at1 out1 oat1 (fsurelu_t d) (fsurelu_t_init d) (fsurelu_step d) (fsurelu_init d).
Proof. apply (lift _ _ _ _ _ _ shp elt (relu_step_ok d) at1_xat); reflexivity. Qed.

Lemma signabs_step_ok d : step_ok shape1 at1 out2 oat2 (fsusignabs_t d) (fsusignabs_step d) shp elt always.
Proof.
  intros acc x Hn _. unfold shape1. unfold fsusignabs_t. destruct (bshape (shp acc) (shp x)) as [sh|] eqn:E.
  2:{ rewrite tmap2_err by exact E. reflexivity. }
  destruct (tmap2_ok Z.add acc (tmap (fun x => x * 2 - 1) x) sh E) as (a1 & -> & Sa & Ea). cbn [bind].
  destruct (bshape_bto _ _ _ E) as [Ba Bx]. pose proof (bto_nonempty _ _ Ba Hn) as Hsh.
  destruct (tmap2_l (fun a h => b2z (a <? h)) (tmap (zclamp 0 (p2 (S d) - 1)) a1) (tone (p2 d))) as (sg & -> & _ & Ss & Es).
  { cbn [shp tmap tone]. rewrite Sa. apply tone_to, Hsh. }
  cbn [bind]. cbn [shp tmap] in Ss, Es. rewrite Sa in *.
  destruct (tmap2_l Z.lxor sg x) as (o & -> & _ & So & Eo); [rewrite Ss; exact Bx|]. cbn [bind]. rewrite Ss in *.
  do 2 eexists. split; [reflexivity|]. split; [exact Sa|]. split; [split; assumption|].
  intros i Hi. unfold oat2. cbn [fst snd elt tmap]. rewrite (Eo i Hi), (Es i Hi). cbn [elt tone tmap]. rewrite (Ea i). reflexivity.
Qed.
Lemma signabs_lanes d : lanewise shape1 at1 out2 oat2 (fsusignabs_t d) (fsusignabs_t_init d) (fsusignabs_step d) (fsusignabs_init d).
Proof. apply (lift _ _ _ _ _ _ shp elt (signabs_step_ok d) at1_xat); reflexivity. Qed.

Lemma bi2uni_step_ok d : step_ok shape1 at1 out1 oat1 (bi2uni_t d) (bi2uni_step d) shp elt always.
Proof.
  intros acc x Hn _. unfold shape1. unfold bi2uni_t. destruct (bshape (shp acc) (shp x)) as [sh|] eqn:E.
  2:{ rewrite tmap2_err by exact E. reflexivity. }
  destruct (tmap2_ok Z.add acc (tmap (fun x => x * 2 - 1) x) sh E) as (a1 & -> & Sa & Ea). cbn [bind].
  set (a2 := tmap (zclamp (- p2 d) (p2 d)) a1). set (o := tmap (fun a => b2z (a >=? 1)) a2).
  destruct (tmap2_l Z.sub a2 o) as (a3 & _ & -> & S3 & E3); [apply bto_refl|]. cbn [bind].
  cbn [shp tmap a2] in S3, E3. rewrite Sa in *. do 2 eexists. split; [reflexivity|]. split; [exact S3|]. split; [exact Sa|].
  intros i Hi. rewrite (E3 i Hi). assert (Eb : bidx (shp o) i = i) by (apply bidx_id; cbn [o a2 tmap shp]; rewrite Sa; exact Hi).
  rewrite Eb. unfold oat1, o, a2. cbn [elt tmap]. rewrite (Ea i). reflexivity.
Qed.
Lemma bi2uni_lanes d : lanewise shape1 at1 out1 oat1 (bi2uni_t d) bi2uni_t_init (bi2uni_step d) bi2uni_init.
Proof. apply (lift _ _ _ _ _ _ shp elt (bi2uni_step_ok d) at1_xat); reflexivity. Qed.

Lemma stack_sum (x : tensor Z) c : exists st, tstack2 x (tlike c x) = Ok st /\
  shp (tsum (length (shp st) - 1) st) = shp x /\ forall i, length i = length (shp x) -> elt (tsum (length (shp st) - 1) st) i = zsum [elt x i; c].
Proof.
  unfold tstack2. cbn [shp tlike]. rewrite shape_eqb_refl. eexists. split; [reflexivity|]. cbn [shp]. rewrite app_length. cbn [length].
  replace (length (shp x) + 1 - 1)%nat with (length (shp x)) by lia. unfold tsum. cbn [shp elt]. split.
  - unfold remove_at. rewrite firstn_app, Nat.sub_diag, firstn_all, skipn_all2 by (rewrite app_length; cbn; lia).
    cbn [firstn]. rewrite !app_nil_r. reflexivity.
  - intros i Hi. rewrite app_nth2, Nat.sub_diag by lia. cbn [nth seq map].
    assert (E : forall j, insert_at (length (shp x)) j i = i ++ [j]).
    { intros j. unfold insert_at. rewrite <- Hi, firstn_all, skipn_all. reflexivity. }
    rewrite !E, !last_last, !removelast_last. reflexivity.
Qed.
Lemma bidx_length s : forall i, (length s <= length i)%nat -> length (bidx s i) = length s.
Proof. induction s as [|d s IH]; intros [|j i] H; cbn in *; try lia. rewrite IH by lia. reflexivity. Qed.

Lemma uni2bi_step_ok d : step_ok shape1 at1 out1 oat1 (uni2bi_t d) (uni2bi_step d) shp elt always.
Proof.
  intros acc x Hn _. unfold shape1. unfold uni2bi_t. destruct (stack_sum x 1) as (stk & -> & Sk & Ek). cbn [bind].
  set (sm := tsum (length (shp stk) - 1) stk) in *. destruct (bshape (shp acc) (shp x)) as [sh|] eqn:E.
  2:{ rewrite tmap2_err by (rewrite Sk; exact E). reflexivity. }
  destruct (tmap2_ok Z.add acc sm sh) as (a1 & -> & Sa & Ea); [rewrite Sk; exact E|]. cbn [bind].
  set (a2 := tmap (zclamp (- p2 d) (p2 d)) a1). set (o := tmap (fun a => b2z (a >=? 2)) a2).
  destruct (tmap2_l Z.sub a2 (tmap (fun o => o * 2) o)) as (a3 & _ & -> & S3 & E3); [apply bto_refl|]. cbn [bind].
  cbn [shp tmap a2] in S3, E3. rewrite Sa in *. do 2 eexists. split; [reflexivity|]. split; [exact S3|]. split; [exact Sa|].
  intros i Hi. rewrite (E3 i Hi). assert (Eb : bidx (shp o) i = i) by (apply bidx_id; cbn [o a2 tmap shp]; rewrite Sa; exact Hi).
  rewrite Eb. unfold oat1, o, a2. cbn [elt tmap]. rewrite (Ea i). rewrite Sk, Ek; [reflexivity|].
  apply bidx_length. apply valid_length in Hi. destruct (bshape_bto _ _ _ E) as [_ Bx]. apply bto_length in Bx. lia.
Qed.
Lemma uni2bi_lanes d : lanewise shape1 at1 out1 oat1 (uni2bi_t d) uni2bi_t_init (uni2bi_step d) uni2bi_init.
Proof. apply (lift _ _ _ _ _ _ shp elt (uni2bi_step_ok d) at1_xat); reflexivity. Qed.

Lemma jkff_step_ok : step_ok shape2 at2 out1 oat1 jkff_t jkff_step shp elt always.
Proof.
  intros q [J K] Hn _. unfold shape2. cbn [fst snd]. unfold jkff_t.
  set (j0 := tmap (fun x => b2z (x =? 0)) J). set (j1 := tmap (fun x => 1 - x) j0).
  set (k0 := tmap (fun x => b2z (x =? 0)) K). set (k1 := tmap (fun x => 1 - x) k0).
  destruct (bshape (shp J) (shp K)) as [sx|] eqn:E.
  2:{ rewrite tmap2_err by exact E. reflexivity. }
  destruct (tmap2_ok Z.land j0 k0 sx E) as (j0k0 & -> & S00 & E00).
  destruct (tmap2_ok Z.land j1 k0 sx E) as (j1k0 & -> & S10 & E10).
  destruct (tmap2_ok Z.land j0 k1 sx E) as (j0k1 & -> & S01 & E01).
  destruct (tmap2_ok Z.land j1 k1 sx E) as (j1k1 & -> & S11 & E11). cbn [bind].
  destruct (bshape (shp q) sx) as [sh|] eqn:F; rewrite bshape_comm in F.
  2:{ rewrite tmap2_err by (rewrite S00; exact F). reflexivity. }
  destruct (bshape_bto _ _ _ E) as [BJ BK]. destruct (bshape_bto _ _ _ F) as [Bx Bq].
  destruct (tmap2_ok Z.mul j0k0 q sh) as (a & -> & Sa & Ea); [rewrite S00; exact F|].
  destruct (tmap2_l Z.mul j1k0 (tlike 1 J)) as (b & -> & _ & Sb & Eb); [rewrite S10; exact BJ|].
  destruct (tmap2_l Z.mul j0k1 (tlike 0 J)) as (c & -> & _ & Sc & Ec); [rewrite S01; exact BJ|].
  destruct (tmap2_ok Z.mul j1k1 (tmap (fun q => 1 - q) q) sh) as (d & -> & Sd & Ed); [rewrite S11; exact F|]. cbn [bind].
  rewrite S10 in *. rewrite S01 in *.
  destruct (tmap2_l Z.add a b) as (ab & -> & _ & Sab & Eab); [rewrite Sa, Sb; exact Bx|]. rewrite Sa in *. cbn [bind].
  destruct (tmap2_l Z.add ab c) as (abc & -> & _ & Sabc & Eabc); [rewrite Sab, Sc; exact Bx|]. rewrite Sab in *. cbn [bind].
  destruct (tmap2_l Z.add abc d) as (q' & -> & _ & Sq' & Eq'); [rewrite Sabc, Sd; apply bto_refl|]. rewrite Sabc in *. cbn [bind].
  do 2 eexists. split; [reflexivity|]. split; [exact Sq'|]. split; [exact Sq'|].
  intros i Hi. unfold oat1. rewrite (Eq' i Hi), (Eabc i Hi), (Eab i Hi), Sb, Sc, Sd, (bidx_id sh i Hi).
  rewrite (Ea i), (Ed i), S00, S11. pose proof (bidx_valid _ _ _ Bx Hi) as Hx. rewrite (Eb _ Hx), (Ec _ Hx).
  rewrite (E00 _), (E10 _), (E01 _), (E11 _). cbn [elt shp tmap tlike j0 j1 k0 k1].
  rewrite (bidx_comp (shp J) sx sh), (bidx_comp (shp K) sx sh) by assumption. reflexivity.
Qed.
Lemma jkff_lanes : lanewise shape2 at2 out1 oat1 jkff_t jkff_t_init jkff_step jkff_init.
Proof. apply (lift _ _ _ _ _ _ shp elt jkff_step_ok at2_xat); reflexivity. Qed.

(** FSUAdd. *)
Definition add_at (st : fsuadd_t_st) (i : index) : fsuadd_st :=
  {| fs_entry := fs_entry (ft_cfg st); fs_scale := fs_scale (ft_cfg st); fs_offset := fs_offset (ft_cfg st);
     fs_acc := elt (ft_acc st) i; fs_first := fs_first (ft_cfg st) |}.

Lemma addat_length dima x i : (dima < length (shp x))%nat -> zlen (addat dima x i) = Z.of_nat (nth (length (shp x) - 1 - dima) (shp x) 0%nat).
Proof. intros _. unfold addat, zlen. rewrite map_length, seq_length. reflexivity. Qed.

Lemma resolve_acc c s size : forall a,
  fsuadd_resolve c {| fs_entry := fs_entry s; fs_scale := fs_scale s; fs_offset := fs_offset s; fs_acc := a; fs_first := fs_first s |} size None None =
  let r := fsuadd_resolve c s size None None in
  {| fs_entry := fs_entry r; fs_scale := fs_scale r; fs_offset := fs_offset r; fs_acc := a; fs_first := fs_first r |}.
Proof. intros a. unfold fsuadd_resolve. cbn [fs_first fs_entry fs_offset]. destruct (fs_first s) eqn:E; cbn; rewrite ?E; reflexivity. Qed.

Lemma add_step_ok c dima : forall st x, shp (ft_acc st) <> [] ->
  match addshape dima x with
  | None => fsuadd_t c dima st x = Err IndexError
  | Some sx =>
      match bshape (shp (ft_acc st)) sx with
      | None => fsuadd_t c dima st x = Err RuntimeError
      | Some sh => exists st' y, fsuadd_t c dima st x = Ok (st', y) /\ shp (ft_acc st') = sh /\ out1 sh y /\
          forall i, valid sh i -> (add_at st' i, oat1 y i) = fsuadd_step c (add_at st (bidx (shp (ft_acc st)) i)) (addat dima x i)
      end
  end.
Proof.
  intros st x Hn. unfold addshape, fsuadd_t. destruct (Nat.ltb_spec dima (length (shp x))) as [L|L]; [|reflexivity].
  set (k := (length (shp x) - 1 - dima)%nat). set (sx := remove_at k (shp x)).
  set (s1 := fsuadd_resolve c (ft_cfg st) (Z.of_nat (nth k (shp x) 0%nat)) None None).
  set (lim := acc_lim (fa_depth c)). set (acc := ft_acc st) in *.
  set (sm := tmap inject_Z (tsum k x)). assert (Ssm : shp sm = sx) by reflexivity.
  assert (Hd : exists sd, bshape sx [1%nat] = Some sd /\ bto sx sd /\ bshape (shp acc) sd = bshape (shp acc) sx).
  { destruct sx as [|d sx']; [exists [1%nat]; split; [reflexivity|]; split; [exact Logic.I|]|].
    - rewrite bshape_nil_r. rewrite bshape_comm. apply bto_bshape, tone_to, Hn.
    - exists (d :: sx'). rewrite bshape_comm. split; [apply bto_bshape, tone_to; discriminate|]. split; [apply bto_refl|reflexivity]. }
  destruct Hd as (sd & Hd & Bsd & Hsame).
  destruct (tmap2_ok (fun a b => (a - b)%Q) sm (tone (fs_offset s1)) sd Hd) as (dl & -> & Sdl & Edl). cbn [bind].
  destruct (bshape (shp acc) sx) as [sh|] eqn:E.
  2:{ rewrite tmap2_err by (rewrite Sdl; exact Hsame). reflexivity. }
  destruct (tmap2_ok Qplus acc dl sh) as (a0 & -> & Sa0 & Ea0); [rewrite Sdl; exact Hsame|]. cbn [bind].
  destruct (bshape_bto _ _ _ Hsame) as [Bacc Bd]. pose proof (bto_nonempty _ _ Bacc Hn) as Hsh.
  set (a1 := tmap (qclamp (- lim) lim) a0). assert (Sa1 : shp a1 = sh) by exact Sa0.
  destruct (tmap2_l (fun a s => b2z (qge a s)) a1 (tone (fs_scale s1))) as (o & -> & _ & So & Eo); [rewrite Sa1; apply tone_to, Hsh|].
  cbn [bind]. rewrite Sa1 in *.
  destruct (tmap2_l (fun o s => (inject_Z o * s)%Q) o (tone (fs_scale s1))) as (sb & -> & _ & Ssb & Esb); [rewrite So; apply tone_to, Hsh|].
  cbn [bind]. rewrite So in *.
  destruct (tmap2_l (fun a b => (a - b)%Q) a1 sb) as (a2 & _ & -> & Sa2 & Ea2); [rewrite Sa1, Ssb; apply bto_refl|]. rewrite Sa1 in *.
  cbn [bind]. do 2 eexists. split; [reflexivity|]. split; [exact Sa2|]. split; [exact So|].
  intros i Hi. unfold oat1, add_at. cbn [ft_cfg ft_acc elt tmap]. rewrite (Ea2 i Hi), Ssb, (bidx_id sh i Hi), (Esb i Hi), (Eo i Hi).
  cbn [elt tone a1 tmap]. rewrite (Ea0 i), (Edl _), Sdl. cbn [elt tone]. rewrite Ssm, (bidx_comp sx sd sh) by assumption.
  unfold fsuadd_step, fsuadd_call. rewrite addat_length by exact L. fold k. rewrite resolve_acc. fold s1. cbn zeta.
  unfold acc_step. cbn [fs_offset fs_scale fs_acc fs_entry fs_first]. fold lim.
  assert (El : elt sm (bidx sx i) = inject_Z (zsum (addat dima x i))) by reflexivity. rewrite El. reflexivity.
Qed.
Lemma addat_xat dima : xat_ok (addshape dima) (addat dima).
Proof.
  intros x sx sh q i H H1 H2 Hv. unfold addshape in H. destruct (dima <? length (shp x))%nat; [|discriminate]. injection H as <-.
  unfold addat. rewrite (bidx_comp _ sh q) by assumption. reflexivity.
Qed.
Lemma add_lanes c dima xs : Forall (fun x => (dima < length (shp x))%nat) xs ->
  lanewise_on (addshape dima) (addat dima) out1 oat1 (fsuadd_t c dima) (fsuadd_t_init c) (fsuadd_step c) (fsuadd_init c) xs.
Proof.
  apply (lift_on _ _ _ _ (fsuadd_t c dima) (fsuadd_step c) (fun st => shp (ft_acc st)) add_at (fun x => (dima < length (shp x))%nat)).
  - intros st x Hn Hx. pose proof (add_step_ok c dima st x Hn) as H. unfold addshape in *.
    destruct (Nat.ltb_spec dima (length (shp x))) as [L|L]; [exact H|lia].
  - apply addat_xat.
  - reflexivity.
  - intros i. reflexivity.
Qed.

(** ** SkewedSync *)
Definition sync_start (cnt : tensor Z) (s : shape) (i : index) : Z := if shape_eqb (shp cnt) s then elt cnt i else 0.

Lemma sync_step depth cnt x :
  match shape2 x with
  | None => skewedsync_t depth cnt x = Err RuntimeError
  | Some s => exists cnt' o1, skewedsync_t depth cnt x = Ok (cnt', (o1, snd x)) /\ shp cnt' = s /\ shp o1 = s /\
      forall i, valid s i -> (elt cnt' i, (elt o1 i, at1 (snd x) i)) = skewedsync_step depth (sync_start cnt s i) (at2 x i)
  end.
Proof.
  destruct x as [a b]. unfold shape2. cbn [fst snd]. unfold skewedsync_t. destruct (bshape (shp a) (shp b)) as [s|] eqn:E.
  2:{ rewrite tmap2_err by exact E. reflexivity. }
  destruct (tmap2_ok Z.add a b s E) as (sm & -> & Ss & Es). cbn [bind]. destruct (bshape_bto _ _ _ E) as [Ba Bb].
  set (upper := p2 depth - 1). set (c := if shape_eqb (shp cnt) (shp sm) then cnt else tlike 0 sm).
  assert (Sc : shp c = s).
  { unfold c. destruct (shape_eqb (shp cnt) (shp sm)) eqn:Q; [apply shape_eqb_spec in Q; congruence|exact Ss]. }
  assert (Ec : forall i, elt c i = sync_start cnt s i).
  { intros i. unfold c, sync_start. rewrite Ss. destruct (shape_eqb (shp cnt) s); reflexivity. }
  clearbody c.
  destruct (tmap2_l Z.mul (tmap (fun c => b2z (negb (c =? 0))) c) (tmap (fun x => 1 - x) a)) as (m1 & -> & _ & S1 & E1); [cbn [shp tmap]; rewrite Sc; exact Ba|].
  destruct (tmap2_l Z.mul (tmap (fun c => 0 - c) (tmap (fun c => b2z (negb (c =? upper))) c)) a) as (m2 & -> & _ & S2 & E2); [cbn [shp tmap]; rewrite Sc; exact Ba|].
  cbn [bind]. cbn [shp tmap] in S1, S2, E1, E2. rewrite Sc in *.
  destruct (tmap2_l Z.add m1 m2) as (m3 & -> & _ & S3 & E3); [rewrite S1, S2; apply bto_refl|]. cbn [bind]. rewrite S1 in *.
  destruct (tmap2_l Z.mul (tmap (fun s => b2z (s =? 1)) sm) m3) as (m4 & _ & -> & S4 & E4); [cbn [shp tmap]; rewrite Ss, S3; apply bto_refl|].
  cbn [bind]. cbn [shp tmap] in S4, E4. rewrite Ss in *.
  destruct (tmap2_r Z.add a m4) as (o1 & -> & S5 & E5); [rewrite S4; exact Ba|]. cbn [bind]. rewrite S4 in *.
  destruct (tmap2_l Z.mul (tmap (fun s => b2z (s =? 1)) sm) (tmap (fun x => x * 2 - 1) a)) as (dl & _ & -> & S6 & E6); [cbn [shp tmap]; rewrite Ss; exact Ba|].
  cbn [bind]. cbn [shp tmap] in S6, E6. rewrite Ss in *.
  destruct (tmap2_l Z.add c dl) as (c1 & _ & -> & S7 & E7); [rewrite Sc, S6; apply bto_refl|]. cbn [bind]. rewrite Sc in *.
  do 2 eexists. split; [reflexivity|]. split; [exact S7|]. split; [exact S5|].
  intros i Hi. cbn [elt tmap]. rewrite (E7 i Hi), (E5 i Hi), (E4 i Hi), S6, S3, (bidx_id s i Hi), (E6 i Hi), (E3 i Hi), S2, (bidx_id s i Hi), (E1 i Hi), (E2 i Hi).
  cbn [elt tmap shp]. rewrite (Es i), (Ec i). reflexivity.
Qed.

(** One block of inputs of one shape. *)
Lemma sync_block depth s xs : Forall (fun x => shape2 x = Some s) xs -> forall cnt,
  exists cnt' ys, run_r (skewedsync_t depth) cnt xs = Ok (cnt', ys) /\ map snd ys = map snd xs /\ Forall (fun y => shp (fst y) = s) ys /\
  (xs <> [] -> shp cnt' = s) /\
  forall i, valid s i -> map (fun y => (elt (fst y) i, at1 (snd y) i)) ys = outs (skewedsync_step depth) (sync_start cnt s i) (map (fun x => at2 x i) xs).
Proof.
  induction xs as [|x xs IH]; intros HF cnt.
  - exists cnt, []. split; [reflexivity|]. split; [reflexivity|]. split; [constructor|]. split; [congruence|]. reflexivity.
  - pose proof (Forall_inv HF) as Hx. pose proof (sync_step depth cnt x) as E. rewrite Hx in E.
    destruct E as (c1 & o1 & E & S1 & So & Hf).
    destruct (IH (Forall_inv_tail HF) c1) as (c2 & ys & E2 & M2 & F2 & S2 & H2).
    exists c2, ((o1, snd x) :: ys). cbn [run_r]. rewrite E, E2. split; [reflexivity|]. split; [cbn [map snd]; rewrite M2; reflexivity|].
    split; [constructor; [exact So|exact F2]|]. split.
    + intros _. destruct xs as [|x' xs']; [|apply S2; discriminate]. injection E2 as <- <-. exact S1.
    + intros i Hi. cbn [map]. rewrite outs_cons, <- (Hf i Hi). cbn [fst snd]. f_equal. rewrite (H2 i Hi).
      unfold sync_start at 1. rewrite S1, shape_eqb_refl. reflexivity.
Qed.

Lemma run_r_app {S I O} (step : S -> I -> result (S * O)) xs : forall s ys,
  run_r step s (xs ++ ys) = match run_r step s xs with
                            | Err e => Err e
                            | Ok (s1, o1) => match run_r step s1 ys with Err e => Err e | Ok (s2, o2) => Ok (s2, o1 ++ o2) end
                            end.
Proof.
  induction xs as [|x xs IH]; intros s ys; cbn [app run_r].
  - destruct (run_r step s ys) as [[s2 o2]|e]; reflexivity.
  - destruct (step s x) as [[s1 o]|e]; [|reflexivity]. rewrite IH. destruct (run_r step s1 xs) as [[s2 o2]|e]; [|reflexivity].
    destruct (run_r step s2 ys) as [[s3 o3]|e]; reflexivity.
Qed.

(** The first block, and a block after an input of another shape: the counters start at 0. *)
Lemma sync_lanes depth s xs : Forall (fun x => shape2 x = Some s) xs ->
  exists st ys, run_r (skewedsync_t depth) skewedsync_t_init xs = Ok (st, ys) /\ map snd ys = map snd xs /\ Forall (fun y => shp (fst y) = s) ys /\
  forall i, valid s i -> map (fun y => (elt (fst y) i, at1 (snd y) i)) ys = outs (skewedsync_step depth) skewedsync_init (map (fun x => at2 x i) xs).
Proof.
  intros HF. destruct (sync_block depth s xs HF skewedsync_t_init) as (st & ys & E & M & F & _ & H). exists st, ys.
  split; [exact E|]. split; [exact M|]. split; [exact F|]. intros i Hi. rewrite (H i Hi). f_equal.
  unfold sync_start, skewedsync_t_init. destruct (shape_eqb (shp (tone 0)) s); reflexivity.
Qed.
Lemma sync_restart depth s s1 xs1 x xs2 st1 ys1 : shape2 x = Some s1 -> s1 <> s -> Forall (fun x => shape2 x = Some s) xs2 ->
  run_r (skewedsync_t depth) skewedsync_t_init (xs1 ++ [x]) = Ok (st1, ys1) ->
  exists st ys, run_r (skewedsync_t depth) skewedsync_t_init ((xs1 ++ [x]) ++ xs2) = Ok (st, ys1 ++ ys) /\
  map snd ys = map snd xs2 /\ Forall (fun y => shp (fst y) = s) ys /\
  forall i, valid s i -> map (fun y => (elt (fst y) i, at1 (snd y) i)) ys = outs (skewedsync_step depth) skewedsync_init (map (fun x => at2 x i) xs2).
Proof.
  intros Hx Hs HF E1. assert (Sh : shp st1 = s1).
  { rewrite run_r_app in E1. destruct (run_r (skewedsync_t depth) skewedsync_t_init xs1) as [[s0 o0]|]; [|discriminate].
    cbn [run_r] in E1. pose proof (sync_step depth s0 x) as E. rewrite Hx in E. destruct E as (c1 & o1 & E & S1 & _). rewrite E in E1.
    injection E1 as <- _. exact S1. }
  destruct (sync_block depth s xs2 HF st1) as (st & ys & E & M & F & _ & H). exists st, ys.
  rewrite run_r_app, E1, E. split; [reflexivity|]. split; [exact M|]. split; [exact F|]. intros i Hi. rewrite (H i Hi). f_equal.
  unfold sync_start. rewrite Sh. destruct (shape_eqb s1 s) eqn:Q; [apply shape_eqb_spec in Q; contradiction|reflexivity].
Qed.
Lemma sync_raises depth xs : (exists x, In x xs /\ shape2 x = None) -> run_r (skewedsync_t depth) skewedsync_t_init xs = Err RuntimeError.
Proof.
  generalize skewedsync_t_init. induction xs as [|x xs IH]; intros st (y & Hy & E); [destruct Hy|]. cbn [run_r].
  pose proof (sync_step depth st x) as Hx. destruct (shape2 x) as [s|] eqn:Ex; [|rewrite Hx; reflexivity].
  destruct Hx as (c1 & o1 & -> & _). destruct Hy as [->|Hy]; [congruence|]. rewrite IH; [reflexivity|]. exists y. auto.
Qed.

(** ** FSUMul, static *)
Lemma bshape_sup a : forall b s, bto a s -> bto b s -> exists r, bshape a b = Some r /\ bto r s.
Proof.
  induction a as [|d a IH]; intros b s Ha Hb; [exists b; split; [reflexivity|exact Hb]|].
  destruct b as [|e b]; [exists (d :: a); split; [reflexivity|exact Ha]|]. destruct s as [|c s]; [destruct Ha|].
  destruct Ha as [Hd Ha], Hb as [He Hb]. destruct (IH b s Ha Hb) as (r & E & Hr).
  assert (Hbd : exists f, bdim d e = Some f /\ (f = 1%nat \/ f = c)).
  { unfold bdim. destruct (Nat.eqb_spec d e); [exists d; auto|]. destruct (Nat.eqb_spec d 1); [exists e; auto|].
    destruct (Nat.eqb_spec e 1); [exists d; auto|]. exfalso. destruct Hd, He; congruence. }
  destruct Hbd as (f & Ef & Hf). exists (f :: r). cbn [bshape]. rewrite Ef, E. split; [reflexivity|]. split; assumption.
Qed.

Lemma bsgen_t_ok binary rng c s : bto (shp binary) s -> bto (shp c) s ->
  exists b, bsgen_t binary rng c = Ok b /\ bto (shp b) s /\ forall i, valid s i -> at1 b i = bsgen_bit (at1 binary i) rng (at1 c i).
Proof.
  intros Hb Hc. destruct (bshape_sup _ _ s Hb Hc) as (r & E & Hr). unfold bsgen_t.
  destruct (tmap2_ok (fun b r => b2z (b >? r)) binary (tmap (fun c => nthZ rng (c mod zlen rng)) c) r E) as (b & -> & Sb & Eb).
  exists b. split; [reflexivity|]. split; [rewrite Sb; exact Hr|]. intros i Hi. unfold at1 at 1. rewrite Sb, (Eb _).
  cbn [shp elt tmap]. destruct (bshape_bto _ _ _ E) as [B1 B2]. unfold bsgen_bit, at1.
  rewrite (bidx_comp _ r s), (bidx_comp _ r s) by assumption. reflexivity.
Qed.

Lemma mul_step m binary rng s x idx inv : bto (shp binary) s -> shp x = s -> bto (shp idx) s -> bto (shp inv) s ->
  exists st y, fsumul_static_t m binary rng (idx, inv) x = Ok (st, y) /\ shp y = s /\ bto (shp (fst st)) s /\ bto (shp (snd st)) s /\
  forall i, valid s i -> ((at1 (fst st) i, at1 (snd st) i), elt y i) = fsumul_static_step m (at1 binary i) rng (at1 idx i, at1 inv i) (elt x i).
Proof.
  intros Hb Hx H1 H2. unfold fsumul_static_t.
  destruct (bsgen_t_ok binary rng idx s Hb H1) as (b & -> & Bb & Eb). cbn [bind].
  destruct (tmap2_l Z.land x b) as (path & -> & _ & Sp & Ep); [rewrite Hx; exact Bb|]. cbn [bind]. rewrite Hx in *.
  destruct (tmap2_r Z.add idx x) as (idx' & -> & Si & Ei); [rewrite Hx; exact H1|]. cbn [bind]. rewrite Hx in *.
  destruct m.
  - do 2 eexists. split; [reflexivity|]. split; [exact Sp|]. cbn [fst snd]. rewrite Si. split; [apply bto_refl|]. split; [exact H2|].
    intros i Hi. unfold at1 at 1. rewrite Si, (bidx_id s i Hi), (Ei i Hi), (Ep i Hi). fold (at1 b i). rewrite (Eb i Hi). reflexivity.
  - destruct (bsgen_t_ok binary rng inv s Hb H2) as (bi & -> & Bbi & Ebi). cbn [bind].
    destruct (tmap2_l Z.land (tmap (fun x => 1 - x) x) (tmap (fun x => 1 - x) bi)) as (pinv & -> & _ & Spi & Epi); [cbn [shp tmap]; rewrite Hx; exact Bbi|].
    cbn [bind]. cbn [shp tmap] in Spi, Epi. rewrite Hx in *.
    destruct (tmap2_r Z.add inv (tmap (fun x => 1 - x) x)) as (inv' & -> & Sv & Ev); [cbn [shp tmap]; rewrite Hx; exact H2|]. cbn [bind].
    cbn [shp tmap] in Sv, Ev. rewrite Hx in *.
    destruct (tmap2_l Z.lor path pinv) as (o & -> & _ & So & Eo); [rewrite Sp, Spi; apply bto_refl|]. cbn [bind]. rewrite Sp in *.
    do 2 eexists. split; [reflexivity|]. split; [exact So|]. cbn [fst snd]. rewrite Si, Sv. split; [apply bto_refl|]. split; [apply bto_refl|].
    intros i Hi. unfold at1 at 1 2. rewrite Si, Sv, (bidx_id s i Hi), (Ei i Hi), (Ev i Hi), (Eo i Hi), Spi, (bidx_id s i Hi), (Ep i Hi), (Epi i Hi).
    cbn [elt tmap]. fold (at1 b i). fold (at1 bi i). rewrite (Eb i Hi), (Ebi i Hi). reflexivity.
Qed.

Lemma mul_run m binary rng s xs : bto (shp binary) s -> Forall (fun x => shp x = s) xs -> forall st, bto (shp (fst st)) s -> bto (shp (snd st)) s ->
  exists st' ys, run_r (fsumul_static_t m binary rng) st xs = Ok (st', ys) /\ Forall (fun y => shp y = s) ys /\
  forall i, valid s i -> map (fun y => elt y i) ys =
    outs (fsumul_static_step m (at1 binary i) rng) (at1 (fst st) i, at1 (snd st) i) (map (fun x => elt x i) xs).
Proof.
  intros Hb. induction xs as [|x xs IH]; intros HF st H1 H2.
  - exists st, []. split; [reflexivity|]. split; [constructor|]. reflexivity.
  - destruct st as [idx inv]. destruct (mul_step m binary rng s x idx inv Hb (Forall_inv HF) H1 H2) as (st1 & y & E & Sy & B1 & B2 & Hf).
    destruct (IH (Forall_inv_tail HF) st1 B1 B2) as (st2 & ys & E2 & F2 & H3). exists st2, (y :: ys). cbn [run_r]. rewrite E, E2.
    split; [reflexivity|]. split; [constructor; assumption|]. intros i Hi. cbn [map fst snd]. rewrite outs_cons, <- (Hf i Hi). cbn [fst snd].
    f_equal. exact (H3 i Hi).
Qed.
Lemma mul_lanes m binary rng s xs : s <> [] -> bshape (shp binary) s = Some s -> Forall (fun x => shp x = s) xs ->
  exists st ys, run_r (fsumul_static_t m binary rng) fsumul_static_t_init xs = Ok (st, ys) /\ Forall (fun y => shp y = s) ys /\
  forall i, valid s i -> map (fun y => elt y i) ys =
    outs (fsumul_static_step m (at1 binary i) rng) fsumul_static_init (map (fun x => elt x i) xs).
Proof.
  intros Hs Hb HF. apply mul_run; [apply bshape_bto in Hb; apply Hb|exact HF| |]; apply tone_to, Hs.
Qed.

(** ** All inputs of one shape *)
Lemma nth_error_ext {A} : forall l l' : list A, (forall t, nth_error l t = nth_error l' t) -> l = l'.
Proof.
  induction l as [|x l IH]; intros [|y l'] H; [reflexivity|discriminate (H 0%nat)|discriminate (H 0%nat)|].
  pose proof (H 0%nat) as E. cbn in E. injection E as ->. f_equal. apply IH. intros t. exact (H (Datatypes.S t)).
Qed.
Lemma hshape_same {TX} (xshape : TX -> option shape) s xs : s <> [] -> Forall (fun x => xshape x = Some s) xs ->
  hshape xshape s xs = Some s.
Proof.
  intros Hs. induction 1 as [|x xs Hx HF IH]; [reflexivity|]. cbn [hshape]. rewrite Hx, (bto_bshape s s (bto_refl s)). exact IH.
Qed.
Lemma lanewise_same {TX TY X Y TS S} xshape xat yok yat (T : TS -> TX -> result (TS * TY)) st0 (f : S -> X -> S * Y) s0 s xs :
  lanewise_on xshape xat yok yat T st0 f s0 xs -> s <> [] -> Forall (fun x => xshape x = Some s) xs ->
  exists st ys, run_r T st0 xs = Ok (st, ys) /\ Forall (yok s) ys /\
  forall i, valid s i -> map (fun y => yat y i) ys = outs f s0 (map (fun x => xat x i) xs).
Proof.
  intros H Hs HF. assert (E1 : forall n, hshape xshape [1%nat] (firstn (Datatypes.S n) xs) = Some s \/ xs = []).
  { intros n. destruct xs as [|x xs]; [right; reflexivity|left]. cbn [firstn hshape]. rewrite (Forall_inv HF).
    rewrite (bto_bshape _ _ (tone_to s Hs)). apply hshape_same; [exact Hs|]. apply Forall_inv_tail in HF.
    apply Forall_forall. intros y Hy. rewrite Forall_forall in HF. apply HF. rewrite <- (firstn_skipn n xs). apply in_or_app. left. exact Hy. }
  assert (E0 : exists q, hshape xshape [1%nat] xs = Some q).
  { destruct xs as [|x xs]; [exists [1%nat]; reflexivity|]. exists s. destruct (E1 (length xs)) as [E|]; [|discriminate].
    rewrite (firstn_all2 (n := Datatypes.S (length xs))) in E by reflexivity. exact E. }
  destruct E0 as (q & E0). unfold lanewise_on in H. rewrite E0 in H. destruct H as (st & ys & Hr & Hl & Hy). exists st, ys. split; [exact Hr|].
  assert (Hok : forall t y, nth_error ys t = Some y -> yok s y /\ forall i, valid s i -> nth_error (outs f s0 (map (fun x => xat x i) xs)) t = Some (yat y i)).
  { intros t y Ht. destruct (Hy t y Ht) as (sh & Esh & Hyo & Hat). destruct (E1 t) as [E|E].
    - rewrite E in Esh. injection Esh as <-. auto.
    - subst xs. destruct ys; [destruct t; discriminate|discriminate]. }
  split.
  - apply Forall_forall. intros y Hin. apply In_nth_error in Hin. destruct Hin as [t Ht]. apply (Hok t y Ht).
  - intros i Hi. apply nth_error_ext. intros t. rewrite nth_error_map. destruct (nth_error ys t) as [y|] eqn:Ht; cbn [option_map].
    + symmetry. apply (Hok t y Ht), Hi.
    + symmetry. apply nth_error_None. rewrite outs_length, map_length, <- Hl. apply nth_error_None, Ht.
Qed.

(** ** FSUMul, in-stream *)
(** Lane i of the register; before the first call every lane holds the initial content. *)
Definition sreg_at (entry : nat) (st : option sreg) (i : index) : list Z :=
  match st with None => shiftreg_init entry | Some r => map (fun g => g i) (sg_rows r) end.
Definition sreg_shape (s : shape) (st : option sreg) : Prop := match st with None => True | Some r => sg_shp r = s end.

Lemma set_last_roll x l v : set_last (roll_m1 (x :: l)) v = l ++ [v].
Proof. cbn [roll_m1]. induction l as [|y l IH]; [reflexivity|]. cbn [app set_last]. rewrite IH. destruct l; reflexivity. Qed.

Lemma sreg_step entry st x s : (0 < entry)%nat -> shp x = s -> sreg_shape s st ->
  match st with None => True | Some r => sg_rows r <> [] end ->
  exists st' o c, shiftreg_t entry st x = Ok (Some st', (o, c)) /\ sg_shp st' = s /\ sg_rows st' <> [] /\ shp o = s /\ shp c = s /\
  forall i, valid s i -> (sreg_at entry (Some st') i, (elt o i, elt c i)) = shiftreg_step (sreg_at entry st i) (elt x i, None, 0).
Proof.
  intros He Hx Hs Hr. unfold shiftreg_t. set (sr := sreg_first entry st x).
  assert (Ssr : sg_shp sr = s) by (unfold sr; destruct st; [exact Hs|exact Hx]).
  assert (Hat : forall i, map (fun g => g i) (sg_rows sr) = sreg_at entry st i).
  { intros i. unfold sr. destruct st as [r|]; [reflexivity|]. cbn [sreg_first sg_rows sreg_at]. unfold shiftreg_init, zrange.
    rewrite !map_map. reflexivity. }
  assert (Hne : sg_rows sr <> []).
  { unfold sr. destruct st as [r|]; [exact Hr|]. cbn [sreg_first sg_rows]. destruct entry; [lia|discriminate]. }
  clearbody sr. destruct (tmap2_l (fun (_ : Z) x => x) (mkT (sg_shp sr) (fun _ => 0)) x) as (l & _ & -> & Sl & El).
  { cbn [shp]. rewrite Ssr, Hx. apply bto_refl. }
  cbn [bind]. do 3 eexists. split; [reflexivity|]. cbn [sg_shp sg_rows shp elt]. split; [exact Ssr|].
  split; [destruct (tl (sg_rows sr)); discriminate|]. split; [exact Ssr|]. split; [exact Ssr|].
  intros i Hi. unfold shiftreg_step. rewrite <- Hat. cbn [sreg_at sg_rows]. rewrite map_app. cbn [map]. cbn [shp] in El. rewrite Ssr in El.
  rewrite (El i Hi), Hx, (bidx_id s i Hi). destruct (sg_rows sr) as [|g rows] eqn:Er; [congruence|]. cbn [tl map hd].
  rewrite set_last_roll. reflexivity.
Qed.

Definition is_at (width : nat) (st : fsumul_is_t_st) (i : index) : fsumul_is_st :=
  {| mi_sr := sreg_at (2 ^ width) (mt_sr st) i; mi_idx := at1 (mt_idx st) i; mi_idx_inv := at1 (mt_idx_inv st) i |}.
Definition is_inv (s : shape) (st : fsumul_is_t_st) : Prop :=
  sreg_shape s (mt_sr st) /\ match mt_sr st with None => True | Some r => sg_rows r <> [] end /\
  bto (shp (mt_idx st)) s /\ bto (shp (mt_idx_inv st)) s.

Lemma mul_is_step m width rng s st x : is_inv s st -> shp (fst x) = s -> shp (snd x) = s ->
  exists st' y, fsumul_is_t m width rng st x = Ok (st', y) /\ shp y = s /\ is_inv s st' /\
  forall i, valid s i -> (is_at width st' i, elt y i) = fsumul_is_step m width rng (is_at width st i) (elt (fst x) i, elt (snd x) i).
Proof.
  intros (I1 & I2 & I3 & I4) H0 H1. destruct x as [x0 x1]. cbn [fst snd] in *. unfold fsumul_is_t.
  assert (He : (0 < 2 ^ width)%nat) by (pose proof (Nat.pow_nonzero 2 width ltac:(lia)); lia).
  destruct (sreg_step (2 ^ width) (mt_sr st) x1 s He H1 I1 I2) as (sr' & o & c & -> & Ssr & Nsr & _ & Sc & Hsr). cbn [bind].
  destruct (tmap2_l (fun s r => b2z (s >? r)) c (tmap (nthZ rng) (mt_idx st))) as (g & -> & _ & Sg & Eg); [rewrite Sc; exact I3|]. cbn [bind]. rewrite Sc in *.
  destruct (tmap2_l Z.land x0 g) as (path & -> & _ & Sp & Ep); [rewrite H0, Sg; apply bto_refl|]. cbn [bind]. rewrite H0 in *.
  destruct (tmap2_r Z.add (mt_idx st) x0) as (id1 & -> & Si & Ei); [rewrite H0; exact I3|]. cbn [bind]. rewrite H0 in *.
  destruct m.
  - do 2 eexists. split; [reflexivity|]. split; [exact Sp|]. split.
    { split; [exact Ssr|]. split; [exact Nsr|]. cbn [mt_idx mt_idx_inv shp tmap]. rewrite Si. split; [apply bto_refl|exact I4]. }
    intros i Hi. unfold is_at, fsumul_is_step. cbn [mi_sr mi_idx mi_idx_inv mt_sr mt_idx mt_idx_inv]. rewrite <- (Hsr i Hi).
    unfold at1 at 1. cbn [shp elt tmap]. rewrite Si, (bidx_id s i Hi), (Ei i Hi), (Ep i Hi), Sg, (bidx_id s i Hi), (Eg i Hi). reflexivity.
  - destruct (tmap2_l (fun s r => b2z (s >? r)) c (tmap (nthZ rng) (mt_idx_inv st))) as (gi & -> & _ & Sgi & Egi); [rewrite Sc; exact I4|]. cbn [bind]. rewrite Sc in *.
    destruct (tmap2_l Z.land (tmap (fun x => 1 - x) x0) (tmap (fun x => 1 - x) gi)) as (pinv & -> & _ & Spi & Epi); [cbn [shp tmap]; rewrite H0, Sgi; apply bto_refl|].
    cbn [bind]. cbn [shp tmap] in Spi, Epi. rewrite H0 in *.
    destruct (tmap2_r Z.add (mt_idx_inv st) (tmap (fun x => 1 - x) x0)) as (inv' & -> & Sv & Ev); [cbn [shp tmap]; rewrite H0; exact I4|]. cbn [bind].
    cbn [shp tmap] in Sv, Ev. rewrite H0 in *.
    destruct (tmap2_l Z.lor path pinv) as (out & -> & _ & So & Eo); [rewrite Sp, Spi; apply bto_refl|]. cbn [bind]. rewrite Sp in *.
    do 2 eexists. split; [reflexivity|]. split; [exact So|]. split.
    { split; [exact Ssr|]. split; [exact Nsr|]. cbn [mt_idx mt_idx_inv shp tmap]. rewrite Si, Sv. split; apply bto_refl. }
    intros i Hi. unfold is_at, fsumul_is_step. cbn [mi_sr mi_idx mi_idx_inv mt_sr mt_idx mt_idx_inv]. rewrite <- (Hsr i Hi).
    unfold at1 at 1 2. cbn [shp elt tmap]. rewrite Si, Sv, (bidx_id s i Hi), (Ei i Hi), (Ev i Hi), (Eo i Hi), Spi, (bidx_id s i Hi), (Ep i Hi), (Epi i Hi), Sg, Sgi, (bidx_id s i Hi), (Eg i Hi).
    cbn [elt tmap]. rewrite (Egi i Hi). reflexivity.
Qed.

Lemma mul_is_lanes m width rng s xs : s <> [] -> Forall (fun x => shp (fst x) = s /\ shp (snd x) = s) xs ->
  exists st ys, run_r (fsumul_is_t m width rng) fsumul_is_t_init xs = Ok (st, ys) /\ Forall (fun y => shp y = s) ys /\
  forall i, valid s i -> map (fun y => elt y i) ys =
    outs (fsumul_is_step m width rng) (fsumul_is_init width) (map (fun x => (elt (fst x) i, elt (snd x) i)) xs).
Proof.
  intros Hs HF.
  assert (G : forall xs, Forall (fun x => shp (fst x) = s /\ shp (snd x) = s) xs -> forall st, is_inv s st ->
    exists st' ys, run_r (fsumul_is_t m width rng) st xs = Ok (st', ys) /\ Forall (fun y => shp y = s) ys /\
    forall i, valid s i -> map (fun y => elt y i) ys =
      outs (fsumul_is_step m width rng) (is_at width st i) (map (fun x => (elt (fst x) i, elt (snd x) i)) xs)).
  { clear xs HF. induction xs as [|x xs IH]; intros HF st Hi.
    - exists st, []. split; [reflexivity|]. split; [constructor|]. reflexivity.
    - destruct (Forall_inv HF) as [H0 H1]. destruct (mul_is_step m width rng s st x Hi H0 H1) as (st1 & y & E & Sy & Hi1 & Hf).
      destruct (IH (Forall_inv_tail HF) st1 Hi1) as (st2 & ys & E2 & F2 & H3). exists st2, (y :: ys). cbn [run_r]. rewrite E, E2.
      split; [reflexivity|]. split; [constructor; assumption|]. intros i Hv. cbn [map]. rewrite outs_cons, <- (Hf i Hv). cbn [fst snd].
      f_equal. exact (H3 i Hv). }
  apply (G xs HF fsumul_is_t_init). split; [exact Logic.I|]. split; [exact Logic.I|]. split; apply tone_to, Hs.
Qed.
