(** Proofs for C71. *)
Require Import Verif.BaseLemmas Verif.TensorModel Verif.TensorSpec Verif.TMetricModel Verif.TMetricSpec Verif.TensorProof Verif.MetricModel.
Open Scope Z_scope.

(** ** Correlation *)
Definition corr_shapes (s : corrt) : Prop :=
  shp (ct_d s) = [1%nat] /\ shp (ct_c s) = [1%nat] /\ shp (ct_b s) = [1%nat] /\ shp (ct_a s) = [1%nat] /\ shp (ct_len s) = [1%nat].
Lemma bshape_one r : bshape [1%nat] r = Some [1%nat] <-> single r.
Proof.
  unfold single. destruct r as [|a t]; cbn [bshape]; [tauto|]. split.
  - unfold bdim. destruct (Nat.eqb_spec 1 a) as [<-|]; [|cbn; destruct t; [intros [= ->]; tauto|discriminate]].
    destruct t; [auto|discriminate].
  - intros [E|E]; [discriminate|]. injection E as -> ->. reflexivity.
Qed.
Lemma count_good (x y k : tensor Z) r : shp k = [1%nat] -> bshape (shp x) (shp y) = Some r -> single r ->
  exists k', bind (tmap2 Z.mul x y) (tmap2_ Z.add k) = Ok k' /\ shp k' = [1%nat] /\ only k' = only k + only x * only y.
Proof.
  intros K B S. destruct (tmap2_ok Z.mul x y r B) as (z & -> & Hs & Hz). cbn [bind].
  pose proof (bshape_bto _ _ _ B) as [Bx By].
  assert (R : bto r [1%nat]) by (destruct S as [->| ->]; cbn; auto).
  assert (Hb : bto (shp z) (shp k)) by (rewrite Hs, K; exact R).
  destruct (tmap2_l Z.add k z Hb) as (k' & _ & E & Hk & Hv). exists k'. split; [exact E|]. split; [congruence|].
  unfold only, at1. rewrite Hk, K. change (bidx [1%nat] [0%nat]) with [0%nat].
  rewrite (Hv [0%nat]) by (rewrite K; cbn; lia). rewrite Hz, Hs.
  rewrite (bidx_comp (shp x) r [1%nat] [0%nat]), (bidx_comp (shp y) r [1%nat] [0%nat]) by (try assumption; cbn; lia). reflexivity.
Qed.
Lemma count_bad (x y k : tensor Z) : shp k = [1%nat] -> ~ (exists r, bshape (shp x) (shp y) = Some r /\ single r) ->
  bind (tmap2 Z.mul x y) (tmap2_ Z.add k) = Err RuntimeError.
Proof.
  intros K N. unfold tmap2 at 1. destruct (bshape (shp x) (shp y)) as [r|]; cbn [bind]; [|reflexivity].
  unfold tmap2_, tmap2. cbn [shp]. rewrite K. destruct (bshape [1%nat] r) as [r'|] eqn:E; cbn [bind]; [|reflexivity].
  cbn [shp]. destruct (shape_eqb r' [1%nat]) eqn:Q; [|reflexivity]. apply shape_eqb_spec in Q. subst r'. apply bshape_one in E.
  destruct N. eauto.
Qed.
Lemma corr_call : forall s in_1 arg2, corr_shapes s ->
  let in_2 := match arg2 with None => ct_in1d s | Some v => v end in
  let '(s', err) := corrt_monitor s (in_1, arg2) in
  corr_shapes s' /\ ct_in1d s' = match arg2 with None => in_1 | Some _ => ct_in1d s end /\
  ((exists r, bshape (shp in_1) (shp in_2) = Some r /\ single r) ->
     err = None /\ cval s' = corr_monitor (cval s) (only in_1, option_map only arg2)) /\
  (~ (exists r, bshape (shp in_1) (shp in_2) = Some r /\ single r) ->
     err = Some RuntimeError /\ ct_d s' = ct_d s /\ ct_c s' = ct_c s /\ ct_b s' = ct_b s /\ ct_a s' = ct_a s /\ ct_len s' = ct_len s).
Proof.
  intros s in_1 arg2 (Hd & Hc & Hb & Ha & Hl). unfold corrt_monitor. set (in_2 := match arg2 with None => ct_in1d s | Some v => v end).
  set (s0 := match arg2 with None => _ | Some _ => s end).
  assert (F : ct_d s0 = ct_d s /\ ct_c s0 = ct_c s /\ ct_b s0 = ct_b s /\ ct_a s0 = ct_a s /\ ct_len s0 = ct_len s /\
    ct_in1d s0 = match arg2 with None => in_1 | Some _ => ct_in1d s end) by (unfold s0; destruct arg2; cbn; auto 9).
  destruct F as (Fd & Fc & Fb & Fa & Fl & Fi). clearbody s0.
  assert (G : (exists r, bshape (shp in_1) (shp in_2) = Some r /\ single r) \/ ~ (exists r, bshape (shp in_1) (shp in_2) = Some r /\ single r)).
  { destruct (bshape (shp in_1) (shp in_2)) as [r|]; [|right; intros (r & E & _); discriminate].
    destruct r as [|[|[|n]] [|b t]]; first [left; eexists; split; [reflexivity|]; unfold single; auto; fail
      | right; intros (r & E & [S|S]); injection E as <-; discriminate]. }
  unfold corrt_count. destruct G as [(r & B & S)|N].
  - set (x0 := tmap (fun x => b2z (x =? 0)) in_1). set (x1 := tmap (fun x => 1 - x) x0).
    set (y0 := tmap (fun x => b2z (x =? 0)) in_2). set (y1 := tmap (fun x => 1 - x) y0).
    destruct (count_good x0 y0 (ct_d s0) r) as (d & -> & Sd & Vd); [congruence|exact B|exact S|].
    cbn [ct_c ct_d ct_b ct_a ct_len ct_in1d].
    destruct (count_good x0 y1 (ct_c s0) r) as (c & -> & Sc & Vc); [congruence|exact B|exact S|].
    cbn [ct_c ct_d ct_b ct_a ct_len ct_in1d].
    destruct (count_good x1 y0 (ct_b s0) r) as (b & -> & Sb & Vb); [congruence|exact B|exact S|].
    cbn [ct_c ct_d ct_b ct_a ct_len ct_in1d].
    destruct (count_good x1 y1 (ct_a s0) r) as (a & -> & Sa & Va); [congruence|exact B|exact S|].
    split; [unfold corr_shapes; cbn; rewrite Fl, Hl; auto|]. split; [exact Fi|].
    split; [intros _; split; [reflexivity|]|intros N; destruct N; eauto].
    unfold cval, corr_monitor. cbn [ct_d ct_c ct_b ct_a ct_len ct_in1d].
    rewrite Vd, Vc, Vb, Va, Fd, Fc, Fb, Fa, Fi, Fl.
    change (only x0) with (b2z (only in_1 =? 0)). change (only x1) with (1 - b2z (only in_1 =? 0)).
    change (only y0) with (b2z (only in_2 =? 0)). change (only y1) with (1 - b2z (only in_2 =? 0)).
    change (only (tmap (fun n => n + 1) (ct_len s))) with (only (ct_len s) + 1).
    unfold in_2. destruct arg2; reflexivity.
  - rewrite count_bad; [|congruence|exact N]. split; [unfold corr_shapes; rewrite Fd, Fc, Fb, Fa, Fl; auto|]. split; [exact Fi|].
    split; [tauto|]. intros _. auto 9.
Qed.
Lemma corr_reach h : forall s, corr_shapes s -> corr_shapes (fst (run corrt_monitor s h)).
Proof.
  induction h as [|[x y] h IH]; intros s Hs; cbn [run]; [exact Hs|]. pose proof (corr_call s x y Hs) as C.
  destruct (corrt_monitor s (x, y)) as [s1 err]. destruct C as (S1 & _). specialize (IH s1 S1). destruct (run corrt_monitor s1 h). exact IH.
Qed.
Lemma corr_calls : forall h in_1 arg2,
  let s := fst (run corrt_monitor corrt_init h) in
  let in_2 := match arg2 with None => ct_in1d s | Some v => v end in
  let '(s', err) := corrt_monitor s (in_1, arg2) in
  ct_in1d s' = match arg2 with None => in_1 | Some _ => ct_in1d s end /\
  ((exists r, bshape (shp in_1) (shp in_2) = Some r /\ single r) ->
     err = None /\ cval s' = corr_monitor (cval s) (only in_1, option_map only arg2)) /\
  (~ (exists r, bshape (shp in_1) (shp in_2) = Some r /\ single r) ->
     err = Some RuntimeError /\ ct_d s' = ct_d s /\ ct_c s' = ct_c s /\ ct_b s' = ct_b s /\ ct_a s' = ct_a s /\ ct_len s' = ct_len s).
Proof.
  intros h x y s in_2. pose proof (corr_call s x y) as C. cbv zeta in C. fold in_2 in C. destruct (corrt_monitor s (x, y)) as [s' err].
  apply C. apply corr_reach. repeat split.
Qed.
Lemma corr_out s : corr_shapes s -> exists r, corrt_forward s = Ok r /\ shp r = [1%nat] /\ elt r [0%nat] = corr_forward (cval s).
Proof.
  intros (Hd & Hc & Hb & Ha & Hl). destruct s as [[sd d] [sc c] [sb b] [sa a] [sl l] i]. cbn [ct_d ct_c ct_b ct_a ct_len shp] in *. subst.
  eexists. split; [reflexivity|]. split; reflexivity.
Qed.
Lemma corr_outs : forall h, let s := fst (run corrt_monitor corrt_init h) in
  exists r, corrt_forward s = Ok r /\ shp r = [1%nat] /\ elt r [0%nat] = corr_forward (cval s).
Proof. intros h s. apply corr_out, corr_reach. repeat split. Qed.
Lemma corr_history : forall h, Forall (fun p => single (shp (fst p)) /\ match snd p with None => True | Some y => single (shp y) end) h ->
  forall s, corr_shapes s -> single (shp (ct_in1d s)) ->
  let '(s', errs) := run corrt_monitor s h in
  errs = map (fun _ => None) h /\ corr_shapes s' /\ cval s' = corr_monitors (cval s) (map (fun p => (only (fst p), option_map only (snd p))) h).
Proof.
  induction h as [|[x y] h IH]; intros F s Hs Hi; cbn [run map]; [auto|].
  pose proof (Forall_inv F) as [Hx Hy]. apply Forall_inv_tail in F. cbn [fst snd] in *.
  pose proof (corr_call s x y Hs) as C. destruct (corrt_monitor s (x, y)) as [s1 err]. destruct C as (S1 & I1 & G & _).
  assert (T : forall a b, single a -> single b -> exists r, bshape a b = Some r /\ single r).
  { intros a b [->| ->] [->| ->]; eexists; (split; [reflexivity|]); unfold single; auto. }
  assert (G' : err = None /\ cval s1 = corr_monitor (cval s) (only x, option_map only y)) by (apply G, T; destruct y; assumption).
  destruct G' as [-> E1].
  specialize (IH F s1 S1 ltac:(rewrite I1; destruct y; assumption)). destruct (run corrt_monitor s1 h) as [s' errs].
  destruct IH as (-> & S' & E'). split; [reflexivity|]. split; [exact S'|]. rewrite E', E1. reflexivity.
Qed.
Lemma corr_lanes : forall h, Forall (fun p => single (shp (fst p)) /\ match snd p with None => True | Some y => single (shp y) end) h ->
  let '(s, errs) := run corrt_monitor corrt_init h in
  errs = map (fun _ => None) h /\
  exists r, corrt_forward s = Ok r /\ shp r = [1%nat] /\
    elt r [0%nat] = corr_forward (corr_monitors corr_init (map (fun p => (only (fst p), option_map only (snd p))) h)).
Proof.
  intros h F. pose proof (corr_history h F corrt_init) as C. destruct (run corrt_monitor corrt_init h) as [s errs].
  destruct C as (E & S & V); [repeat split|right; reflexivity|]. split; [exact E|].
  destruct (corr_out s S) as (r & -> & R & X). exists r. split; [reflexivity|]. split; [exact R|]. rewrite X, V. reflexivity.
Qed.

(** ** ProgError *)
Definition lane (s : pet) (i : index) : pe_st := {| pe_cycle := only (pt_cycle s); pe_one := at1 (pt_one s) i |}.
Lemma grown_bto {A} (xs : list (tensor A)) : forall s, bto s (grown s xs).
Proof.
  induction xs as [|x xs IH]; intros s; cbn [grown]; [apply bto_refl|].
  destruct (bshape s (shp x)) as [s'|] eqn:E; [|apply IH]. apply bshape_bto in E. exact (bto_trans _ _ _ (proj1 E) (IH s')).
Qed.
Lemma taken_lanes : forall xs s, shp (pt_cycle s) = [1%nat] ->
  let '(s', errs) := run pet_monitor s xs in
  errs = refusals (shp (pt_one s)) xs /\ shp (pt_cycle s') = [1%nat] /\ shp (pt_one s') = grown (shp (pt_one s)) xs /\
  forall i, valid (shp (pt_one s')) i -> lane s' i = pe_monitors (lane s i) (map (fun x => at1 x i) (taken (shp (pt_one s)) xs)).
Proof.
  induction xs as [|x xs IH]; intros s Hc; cbn [run]; [auto|].
  unfold pet_monitor at 1. destruct (bshape (shp (pt_one s)) (shp x)) as [r|] eqn:B.
  - destruct (tmap2_ok Z.add (pt_one s) x r B) as (one & -> & Hs & Hv).
    set (s1 := {| pt_cycle := _; pt_one := one |}).
    specialize (IH s1). destruct (run pet_monitor s1 xs) as [s' errs]. destruct IH as (E & C & G & L); [exact Hc|].
    cbn [pt_one s1] in *. rewrite Hs in *. cbn [refusals grown taken]. rewrite B.
    split; [rewrite E; reflexivity|]. split; [exact C|]. split; [exact G|].
    intros i Hi. rewrite (L i Hi). cbn [map]. change (pe_monitors (lane s i) (at1 x i :: map (fun x0 => at1 x0 i) (taken r xs)))
      with (pe_monitors (pe_monitor (lane s i) (at1 x i)) (map (fun x0 => at1 x0 i) (taken r xs))). f_equal.
    unfold lane, pe_monitor, s1. cbn [pt_cycle pt_one pe_cycle pe_one]. f_equal. unfold at1. rewrite Hv, Hs.
    pose proof (bshape_bto _ _ _ B) as [B1 B2]. rewrite G in Hi. pose proof (grown_bto xs r) as Gb.
    rewrite (bidx_comp _ r _ i B1 Gb Hi), (bidx_comp _ r _ i B2 Gb Hi). reflexivity.
  - rewrite (tmap2_err Z.add _ _ B). specialize (IH s Hc). destruct (run pet_monitor s xs) as [s' errs]. destruct IH as (E & C & G & L).
    cbn [refusals grown taken]. rewrite B. split; [rewrite E; reflexivity|]. split; [exact C|]. split; [exact G|]. exact L.
Qed.
Lemma pet_out : forall m scale source s, shp (pt_cycle s) = [1%nat] -> shp (pt_one s) <> [] ->
  exists pp pe, pet_forward m (pet_source scale source) s = Ok (pp, pe) /\ shp pp = shp (pt_one s) /\
  (forall i, valid (shp (pt_one s)) i -> elt pp i = option_map fst (pe_forward m scale (at1 source i) (lane s i))) /\
  match bshape (shp (pt_one s)) (shp source) with
  | None => pe = Err RuntimeError
  | Some r => exists p, pe = Ok p /\ shp p = r /\ forall i, valid r i -> elt p i = option_map snd (pe_forward m scale (at1 source i) (lane s i))
  end.
Proof.
  intros m scale source s Hc Hn. unfold pet_forward.
  assert (Bc : bto (shp (pt_cycle s)) (shp (pt_one s))) by (rewrite Hc; apply tone_to; exact Hn).
  destruct (tmap2_l (fun n c => if c =? 0 then None else Some (inject_Z n / inject_Z c)%Q) (pt_one s) (pt_cycle s) Bc) as (pp0 & -> & _ & Hs & Hv).
  cbn [bind]. set (pp := match m with Bipolar => _ | Unipolar => pp0 end).
  assert (Cyc : forall i, valid (shp (pt_one s)) i -> elt (pt_cycle s) (bidx (shp (pt_cycle s)) i) = only (pt_cycle s)).
  { intros i Hi. unfold only, at1. rewrite Hc. f_equal. destruct (shp (pt_one s)) as [|a t]; [congruence|]. destruct i as [|j i]; [destruct Hi|]. reflexivity. }
  assert (Spp : shp pp = shp (pt_one s)) by (unfold pp; destruct m; exact Hs).
  assert (Vpp : forall i, valid (shp (pt_one s)) i -> forall src, elt pp i = option_map fst (pe_forward m scale src (lane s i))).
  { intros i Hi src. unfold pp, pe_forward, lane. cbn [pe_cycle pe_one].
    assert (E : elt pp0 i = if only (pt_cycle s) =? 0 then None else Some (inject_Z (at1 (pt_one s) i) / inject_Z (only (pt_cycle s)))%Q).
    { rewrite (Hv i Hi), (Cyc i Hi). unfold at1. rewrite (bidx_id (shp (pt_one s)) i Hi). reflexivity. }
    destruct m; cbn [tmap elt]; rewrite E; destruct (only (pt_cycle s) =? 0); reflexivity. }
  clearbody pp. exists pp. eexists. split; [reflexivity|]. split; [exact Spp|]. split; [intros i Hi; apply Vpp, Hi|].
  destruct (bshape (shp (pt_one s)) (shp source)) as [r|] eqn:B.
  - destruct (tmap2_ok (fun x y => option_map (fun v => (v - y)%Q) x) pp (pet_source scale source) r) as (p & Ep & Hp & Ve); [rewrite Spp; exact B|].
    exists p. split; [exact Ep|]. split; [exact Hp|]. intros i Hi. rewrite Ve, Spp. pose proof (bshape_bto _ _ _ B) as [B1 B2].
    rewrite (Vpp _ (bidx_valid _ _ _ B1 Hi) (at1 source i)). unfold lane, at1 at 2.
    rewrite (bidx_comp _ _ r i (bto_refl (shp (pt_one s))) B1 Hi). fold (at1 (pt_one s) i).
    unfold pe_forward. cbn [pe_cycle pe_one]. destruct (only (pt_cycle s) =? 0); [reflexivity|]. cbn [option_map fst snd].
    change (elt (pet_source scale source) (bidx (shp (pet_source scale source)) i)) with (pe_source scale (at1 source i)). reflexivity.
  - apply tmap2_err. rewrite Spp. exact B.
Qed.
Lemma grown_ne {A} s (xs : list (tensor A)) : s <> [] -> grown s xs <> [].
Proof. intros N. exact (bto_nonempty _ _ (grown_bto xs s) N). Qed.
Lemma pe_lanes : forall m scale source xs,
  let '(s, errs) := run pet_monitor pet_init xs in
  let sh := grown [1%nat] xs in
  let h i := pe_monitors pe_init (map (fun x => at1 x i) (taken [1%nat] xs)) in
  errs = refusals [1%nat] xs /\
  exists pp pe, pet_forward m (pet_source scale source) s = Ok (pp, pe) /\ shp pp = sh /\
  (forall i, valid sh i -> elt pp i = option_map fst (pe_forward m scale (at1 source i) (h i))) /\
  match bshape sh (shp source) with
  | None => pe = Err RuntimeError
  | Some r => exists p, pe = Ok p /\ shp p = r /\ forall i, valid r i -> elt p i = option_map snd (pe_forward m scale (at1 source i) (h (bidx sh i)))
  end.
Proof.
  intros m scale source xs. pose proof (taken_lanes xs pet_init eq_refl) as T. destruct (run pet_monitor pet_init xs) as [s errs].
  destruct T as (E & C & G & L). change (shp (pt_one pet_init)) with [1%nat] in *. split; [exact E|].
  assert (N : shp (pt_one s) <> []) by (rewrite G; apply grown_ne; discriminate).
  assert (I0 : forall i, i <> [] -> lane pet_init i = pe_init) by reflexivity.
  destruct (pet_out m scale source s C N) as (pp & pe & -> & Sp & Vp & Pe). exists pp, pe. split; [reflexivity|]. split; [congruence|]. split.
  - intros i Hi. rewrite <- G in Hi. rewrite (Vp i Hi), (L i Hi). reflexivity.
  - rewrite <- G. destruct (bshape (shp (pt_one s)) (shp source)) as [r|] eqn:B; [|exact Pe]. destruct Pe as (p & -> & Hp & Ve). exists p.
    split; [reflexivity|]. split; [exact Hp|]. intros i Hi. rewrite (Ve i Hi). f_equal. f_equal.
    pose proof (bshape_bto _ _ _ B) as [B1 _]. pose proof (L _ (bidx_valid _ _ _ B1 Hi)) as Li.
    change (lane pet_init (bidx (shp (pt_one s)) i)) with pe_init in Li. rewrite <- Li.
    unfold lane. f_equal. unfold at1. rewrite (bidx_comp _ _ r i (bto_refl (shp (pt_one s))) B1 Hi). reflexivity.
Qed.

(** ** Stability *)
Lemma bto_antisym s : forall r, bto s r -> bto r s -> s = r.
Proof.
  induction s as [|a s IH]; intros [|b r] H1 H2; cbn in *; try contradiction; [reflexivity|].
  destruct H1 as [Ha Hs], H2 as [Hb Hr]. f_equal; [|apply IH; assumption]. destruct Ha, Hb; congruence.
Qed.
Lemma expands_bto s r : expands s r <-> bto s r.
Proof. split; [intros E; apply bshape_bto in E; apply E|apply bto_bshape]. Qed.
Definition slane (s : stabt) (i : index) : stab_st := {| sb_pe := lane (st_pe s) i; sb_cts := elt (st_cts s) i |}.
Section Stab.
  Variables (m : mode) (scale : Q) (source : tensor Q) (threshold : Q).
  Let S := shp source.
  Definition good (s : stabt) : Prop :=
    shp (pt_cycle (st_pe s)) = [1%nat] /\ shp (pt_one (st_pe s)) <> [] /\ shp (st_cts s) = S /\ 0 <= only (pt_cycle (st_pe s)).
  Lemma stab_call : forall s x, good s ->
    let '(s', err) := stabt_monitor m scale source threshold s x in
    good s' /\
    match bshape (shp (pt_one (st_pe s))) (shp x) with
    | None => s' = s /\ err = Some RuntimeError
    | Some o =>
        shp (pt_one (st_pe s')) = o /\ only (pt_cycle (st_pe s')) = only (pt_cycle (st_pe s)) + 1 /\
        if expands_dec o S
        then err = None /\ forall i, valid S i -> slane s' i = stab_monitor m scale (at1 source i) threshold (slane s i) (at1 x i)
        else err = Some RuntimeError /\ st_cts s' = st_cts s
    end.
  Proof.
    intros s x (Hc & Ho & Ht & Hp). unfold stabt_monitor, pet_monitor.
    destruct (bshape (shp (pt_one (st_pe s))) (shp x)) as [o|] eqn:B.
    2:{ rewrite (tmap2_err Z.add _ _ B). destruct s. split; [repeat split; assumption|]. split; reflexivity. }
    destruct (tmap2_ok Z.add _ x o B) as (one & -> & Hs & Hv).
    set (p := {| pt_cycle := _; pt_one := one |}).
    pose proof (bshape_bto _ _ _ B) as [Bo Bx].
    assert (No : o <> []) by exact (bto_nonempty _ _ Bo Ho).
    assert (Cp : shp (pt_cycle p) = [1%nat]) by exact Hc.
    assert (Op : shp (pt_one p) = o) by exact Hs.
    assert (Vc : only (pt_cycle p) = only (pt_cycle (st_pe s)) + 1) by reflexivity.
    assert (Lp : forall q i, bto o q -> valid q i -> lane p i = pe_monitor (lane (st_pe s) i) (at1 x i)).
    { intros q i Bq Hi. unfold lane, pe_monitor. cbn [pe_cycle pe_one]. rewrite Vc. f_equal. unfold at1. rewrite Op. change (pt_one p) with one. rewrite Hv.
      rewrite (bidx_comp _ o q i Bo Bq Hi), (bidx_comp _ o q i Bx Bq Hi). reflexivity. }
    destruct (pet_out m scale source p Cp ltac:(congruence)) as (pp & pe & -> & _ & _ & Pe). clearbody p. cbn [bind snd st_cts st_pe].
    rewrite Op in Pe. fold S in Pe.
    destruct (expands_dec o S) as [E|E].
    - pose proof (proj1 (expands_bto _ _) E) as Eb. assert (NS : S <> []) by exact (bto_nonempty _ _ Eb No).
      red in E. rewrite E in Pe. destruct Pe as (q & -> & Hq & Vq). cbn [bind].
      set (gt := tmap (fun x => match x with Some v => b2z (qgt (Qabs v) threshold) | None => 0 end) q).
      destruct (tmap2_r Z.sub (pt_cycle p) (st_cts s)) as (lf & -> & Hl & Vl); [rewrite Cp, Ht; apply tone_to, NS|]. cbn [bind].
      destruct (tmap2_l Z.mul gt lf) as (stp & _ & -> & Hst & Vst); [rewrite Hl, Ht; change (shp gt) with (shp q); rewrite Hq; apply bto_refl|]. cbn [bind].
      change (shp gt) with (shp q) in *. rewrite Hq in Hst, Vst.
      destruct (tmap2_l Z.add (st_cts s) stp) as (ct & _ & -> & Hct & Vct); [rewrite Hst, Ht; apply bto_refl|].
      split; [repeat split; cbn [st_pe st_cts]; [exact Cp|congruence|congruence|lia]|]. cbn [st_pe st_cts].
      split; [exact Op|]. split; [exact Vc|]. split; [reflexivity|]. intros i Hi.
      unfold slane, stab_monitor. cbn [sb_pe sb_cts st_pe st_cts]. rewrite <- (Lp S i Eb Hi).
      unfold pe_forward at 1. change (pe_cycle (lane p i)) with (only (pt_cycle p)).
      assert (NZ : (only (pt_cycle p) =? 0) = false) by lia.
      specialize (Vq i Hi). unfold pe_forward in Vq. change (pe_cycle (lane p i)) with (only (pt_cycle p)) in Vq. rewrite NZ in *.
      cbn [option_map snd] in Vq. f_equal. rewrite (Vct i ltac:(rewrite Ht; exact Hi)). rewrite Hst, (bidx_id S i Hi).
      rewrite (Vst i Hi). rewrite Hl, Ht, (bidx_id S i Hi). rewrite (Vl i ltac:(rewrite Ht; exact Hi)).
      unfold gt. cbn [tmap elt]. rewrite Vq. f_equal. f_equal. f_equal. unfold only, at1. rewrite Cp. f_equal.
      destruct S as [|a t]; [congruence|]. destruct i as [|j i]; [destruct Hi|]. reflexivity.
    - assert (X : (do pe0 <- pe; let gt := tmap (fun x => match x with Some v => b2z (qgt (Qabs v) threshold) | None => 0 end) pe0 in
             do left <- tmap2 Z.sub (pt_cycle p) (st_cts s); do step <- tmap2_ Z.mul gt left; tmap2_ Z.add (st_cts s) step) = Err RuntimeError).
      { destruct (bshape o S) as [r|] eqn:R; [|rewrite Pe; reflexivity]. destruct Pe as (q & -> & Hq & _). cbn [bind].
        assert (K : forall u v w : tensor Z, shp u = r -> forall lf, tmap2 Z.sub v w = Ok lf -> shp w = S ->
          (do step <- tmap2_ Z.mul u lf; tmap2_ Z.add w step) = Err RuntimeError).
        { intros u v w Hu lf _ Hw. unfold tmap2_ at 1, tmap2 at 1. destruct (bshape (shp u) (shp lf)) as [a|]; [|reflexivity]. cbn [bind shp].
          destruct (shape_eqb a (shp u)) eqn:Q; [|reflexivity]. apply shape_eqb_spec in Q. subst a. cbn [bind].
          unfold tmap2_, tmap2. cbn [shp]. rewrite Hu, Hw. destruct (bshape S r) as [b|] eqn:R'; [|reflexivity]. cbn [bind shp].
          destruct (shape_eqb b S) eqn:Q; [|reflexivity]. apply shape_eqb_spec in Q. subst b. apply bshape_bto in R'. apply bshape_bto in R.
          destruct R as [R1 R2], R' as [_ R3]. destruct E. apply expands_bto. exact (bto_trans _ _ _ R1 R3). }
        destruct (tmap2 Z.sub (pt_cycle p) (st_cts s)) as [lf|e] eqn:L.
        - cbn [bind]. exact (K (tmap _ q) _ _ Hq lf L Ht).
        - cbn [bind]. unfold tmap2 in L. destruct (bshape (shp (pt_cycle p)) (shp (st_cts s))); congruence. }
      cbv zeta in X. rewrite X. cbn [st_pe st_cts]. split; [repeat split; cbn [st_pe st_cts]; [exact Cp|congruence|exact Ht|lia]|]. auto.
  Qed.
  Lemma stab_stuck : forall xs s, good s -> ~ expands (shp (pt_one (st_pe s))) S ->
    let '(s', errs) := run (stabt_monitor m scale source threshold) s xs in
    good s' /\ errs = map (fun _ => Some RuntimeError) xs /\ st_cts s' = st_cts s /\ errs = misfits S (shp (pt_one (st_pe s))) xs /\
    only (pt_cycle (st_pe s')) = only (pt_cycle (st_pe s)) + Z.of_nat (length (taken (shp (pt_one (st_pe s))) xs)).
  Proof.
    induction xs as [|x xs IH]; intros s G N; cbn [run]; [cbn; split; [exact G|]; repeat split; lia|].
    pose proof (stab_call s x G) as C. destruct (stabt_monitor m scale source threshold s x) as [s1 err]. destruct C as (G1 & C).
    cbn [misfits taken map]. destruct (bshape (shp (pt_one (st_pe s))) (shp x)) as [o|] eqn:B.
    - destruct C as (O1 & C1 & C). apply bshape_bto in B.
      assert (N1 : ~ expands o S) by (intros E; apply N, expands_bto; apply expands_bto in E; exact (bto_trans _ _ _ (proj1 B) E)).
      destruct (expands_dec o S) as [E|_]; [contradiction|]. destruct C as [-> T1].
      specialize (IH s1 G1 ltac:(rewrite O1; exact N1)). destruct (run (stabt_monitor m scale source threshold) s1 xs) as [s' errs].
      rewrite O1 in IH. destruct IH as (G' & E' & T' & M' & L'). split; [exact G'|]. split; [rewrite E'; reflexivity|]. split; [congruence|].
      split; [rewrite M'; reflexivity|]. rewrite L', C1. cbn [length]. lia.
    - destruct C as [-> ->]. specialize (IH s G N). destruct (run (stabt_monitor m scale source threshold) s xs) as [s' errs].
      destruct IH as (G' & E' & T' & M' & L'). split; [exact G'|]. split; [rewrite E'; reflexivity|]. split; [exact T'|].
      split; [rewrite M'; reflexivity|]. exact L'.
  Qed.
  Lemma fitting_stuck {A} (xs : list (tensor A)) : forall s, ~ expands s S -> fitting S s xs = [].
  Proof.
    induction xs as [|x xs IH]; intros s N; cbn [fitting]; [reflexivity|]. destruct (bshape s (shp x)) as [o|] eqn:B; [|apply IH, N].
    destruct (expands_dec o S) as [E|]; [|reflexivity]. destruct N. apply expands_bto. apply expands_bto in E. apply bshape_bto in B.
    exact (bto_trans _ _ _ (proj1 B) E).
  Qed.
  Lemma stab_run : forall xs s, good s ->
    let '(s', errs) := run (stabt_monitor m scale source threshold) s xs in
    let o := shp (pt_one (st_pe s)) in
    good s' /\ errs = misfits S o xs /\ shp (pt_one (st_pe s')) = grown o xs /\
    only (pt_cycle (st_pe s')) = only (pt_cycle (st_pe s)) + Z.of_nat (length (taken o xs)) /\
    (forall i, valid S i -> elt (st_cts s') i = sb_cts (stab_monitors m scale (at1 source i) threshold (slane s i) (map (fun x => at1 x i) (fitting S o xs)))) /\
    (expands (grown o xs) S -> forall i, valid S i ->
       slane s' i = stab_monitors m scale (at1 source i) threshold (slane s i) (map (fun x => at1 x i) (taken o xs))).
  Proof.
    induction xs as [|x xs IH]; intros s G; cbn [run]; [cbn; split; [exact G|]; repeat split; lia|].
    pose proof (stab_call s x G) as C. destruct (stabt_monitor m scale source threshold s x) as [s1 err]. destruct C as (G1 & C).
    cbn [misfits taken grown fitting]. destruct (bshape (shp (pt_one (st_pe s))) (shp x)) as [o|] eqn:B.
    - destruct C as (O1 & C1 & C). specialize (IH s1 G1).
      destruct (expands_dec o S) as [E|N].
      + destruct C as [-> L1]. destruct (run (stabt_monitor m scale source threshold) s1 xs) as [s' errs]. rewrite O1 in IH.
        destruct IH as (G' & E' & S' & L' & V' & W'). split; [exact G'|]. split; [rewrite E'; reflexivity|]. split; [exact S'|].
        split; [rewrite L', C1; cbn [length]; lia|]. split.
        * intros i Hi. rewrite (V' i Hi), (L1 i Hi). reflexivity.
        * intros H i Hi. rewrite (W' H i Hi), (L1 i Hi). reflexivity.
      + destruct C as [-> T1]. pose proof (stab_stuck xs s1 G1 ltac:(rewrite O1; exact N)) as K.
        destruct (run (stabt_monitor m scale source threshold) s1 xs) as [s' errs]. rewrite O1 in *.
        destruct IH as (G' & E' & S' & L' & V' & W'). destruct K as (_ & _ & T' & _ & _). split; [exact G'|]. split; [rewrite E'; reflexivity|].
        split; [exact S'|]. split; [rewrite L', C1; cbn [length]; lia|]. split.
        * intros i Hi. rewrite T', T1. reflexivity.
        * intros H. destruct N. apply expands_bto. apply expands_bto in H. exact (bto_trans _ _ _ (grown_bto xs o) H).
    - destruct C as [-> ->]. specialize (IH s G). destruct (run (stabt_monitor m scale source threshold) s xs) as [s' errs].
      destruct IH as (G' & E' & R). split; [exact G'|]. split; [rewrite E'; reflexivity|]. exact R.
  Qed.
  Lemma good_init : good (stabt_init source).
  Proof. unfold good. cbn. repeat split; try lia; discriminate. Qed.
  Lemma stab_out : forall s, good s ->
    exists r, stabt_forward s = Ok r /\ Some (shp r) = bshape S [1%nat] /\
    forall i, valid (shp r) i -> elt r i = let cycle := only (pt_cycle (st_pe s)) in
      if cycle =? 0 then None else Some (1 - inject_Z (zclamp 1 cycle (elt (st_cts s) (bidx S i))) / inject_Z cycle)%Q.
  Proof.
    intros s (Hc & Ho & Ht & Hp). unfold stabt_forward. set (c := elt (pt_cycle (st_pe s)) [0%nat]).
    assert (Ec : only (pt_cycle (st_pe s)) = c) by (unfold only, at1, c; rewrite Hc; reflexivity).
    set (q := tmap (fun n => Z.min c (Z.max 1 n)) (st_cts s)).
    assert (Hq : shp q = S) by exact Ht.
    assert (B : exists r, bshape S [1%nat] = Some r /\ r <> []) .
    { destruct S as [|a t] eqn:ES; [exists [1%nat]; split; [reflexivity|discriminate]|]. exists (a :: t). split; [|discriminate].
      rewrite bshape_comm. apply bto_bshape, tone_to. discriminate. }
    destruct B as (r & B & Nr).
    destruct (tmap2_ok (fun n c => if c =? 0 then None else Some (inject_Z n / inject_Z c)%Q) q (pt_cycle (st_pe s)) r) as (z & -> & Hz & Vz);
      [rewrite Hq, Hc; exact B|]. cbn [bind].
    eexists. split; [reflexivity|]. cbn [tmap shp elt]. rewrite Hz. split; [symmetry; exact B|]. intros i Hi. rewrite Vz, Hc, Hq.
    assert (K : bidx [1%nat] i = [0%nat]) by (destruct r as [|a t]; [congruence|]; destruct i as [|j i]; [destruct Hi|]; reflexivity).
    rewrite K. fold c. rewrite Ec. cbv zeta. destruct (c =? 0) eqn:Z0; [reflexivity|]. cbn [option_map]. f_equal. unfold q. cbn [tmap elt].
    replace (zclamp 1 c (elt (st_cts s) (bidx S i))) with (Z.min c (Z.max 1 (elt (st_cts s) (bidx S i)))); [reflexivity|].
    unfold zclamp. rewrite <- Ec in Z0 |- *. clear - Z0 Hp. lia.
  Qed.
  Lemma stab_lanes : forall xs,
    let '(s, errs) := run (stabt_monitor m scale source threshold) (stabt_init source) xs in
    let cycle := Z.of_nat (length (taken [1%nat] xs)) in
    errs = misfits S [1%nat] xs /\
    exists r, stabt_forward s = Ok r /\ Some (shp r) = bshape S [1%nat] /\
    (forall i, valid (shp r) i -> elt r i =
       if cycle =? 0 then None
       else Some (1 - inject_Z (zclamp 1 cycle (sb_cts (stab_monitors m scale (at1 source i) threshold stab_init
                                                          (map (fun x => at1 x i) (fitting S [1%nat] xs))))) / inject_Z cycle)%Q) /\
    (expands (grown [1%nat] xs) S -> 0 < cycle -> forall i, valid S i -> elt r i =
       Some (stab_forward (stab_monitors m scale (at1 source i) threshold stab_init (map (fun x => at1 x i) (taken [1%nat] xs))))).
  Proof.
    intros xs. pose proof (stab_run xs _ good_init) as R. destruct (run (stabt_monitor m scale source threshold) (stabt_init source) xs) as [s errs].
    change (shp (pt_one (st_pe (stabt_init source)))) with [1%nat] in R. change (only (pt_cycle (st_pe (stabt_init source)))) with 0 in R.
    destruct R as (G & E & O & C & V & W). rewrite Z.add_0_l in C. split; [exact E|]. destruct (stab_out s G) as (r & -> & Hr & Vr).
    exists r. split; [reflexivity|]. split; [exact Hr|]. rewrite C in Vr. cbv zeta in Vr.
    assert (Bs : bto S (shp r)) by (symmetry in Hr; apply bshape_bto in Hr; apply Hr).
    split.
    - intros i Hi. rewrite (Vr i Hi). destruct (Z.of_nat (length (taken [1%nat] xs)) =? 0); [reflexivity|].
      rewrite (V _ (bidx_valid _ _ _ Bs Hi)). change (slane (stabt_init source) (bidx S i)) with stab_init.
      assert (X : fitting S [1%nat] xs = [] \/ S = shp r).
      { destruct S as [|a t] eqn:ES; [left|right].
        - rewrite <- ES. apply fitting_stuck. rewrite ES. intros H. discriminate H.
        - rewrite bshape_comm, (bto_bshape _ _ (tone_to (a :: t) ltac:(discriminate))) in Hr. injection Hr as ->. reflexivity. }
      destruct X as [->|X]; [reflexivity|]. rewrite <- X in Hi. rewrite (bidx_id S i Hi). reflexivity.
    - intros H P i Hi.
      assert (NS : S <> []).
      { apply expands_bto in H. apply (bto_nonempty _ _ H). apply grown_ne. discriminate. }
      assert (X : S = shp r) by (rewrite bshape_comm, (bto_bshape _ _ (tone_to S NS)) in Hr; injection Hr as ->; reflexivity).
      rewrite (Vr i ltac:(rewrite <- X; exact Hi)). destruct (Z.eqb_spec (Z.of_nat (length (taken [1%nat] xs))) 0) as [K|_]; [lia|].
      rewrite (bidx_id S i Hi). pose proof (W H i Hi) as Wi. change (slane (stabt_init source) i) with stab_init in Wi. rewrite <- Wi.
      unfold stab_forward, slane. cbn [sb_pe sb_cts]. unfold lane. cbn [pe_cycle]. rewrite C. reflexivity.
  Qed.
  Lemma stab_stuck_lanes : forall xs ys, ~ expands (grown [1%nat] xs) S ->
    let s := fst (run (stabt_monitor m scale source threshold) (stabt_init source) xs) in
    snd (run (stabt_monitor m scale source threshold) s ys) = map (fun _ => Some RuntimeError) ys /\
    st_cts (fst (run (stabt_monitor m scale source threshold) s ys)) = st_cts s.
  Proof.
    intros xs ys N. pose proof (stab_run xs _ good_init) as R. destruct (run (stabt_monitor m scale source threshold) (stabt_init source) xs) as [s errs].
    destruct R as (G & _ & O & _). cbn [fst]. change (shp (pt_one (st_pe (stabt_init source)))) with [1%nat] in O. rewrite <- O in N. pose proof (stab_stuck ys s G N) as K.
    destruct (run (stabt_monitor m scale source threshold) s ys) as [s' errs']. destruct K as (_ & K1 & K2 & _). cbn [fst snd]. auto.
  Qed.
  Lemma stab_zerodim : S = [] -> forall xs,
    snd (run (stabt_monitor m scale source threshold) (stabt_init source) xs) = map (fun _ => Some RuntimeError) xs.
  Proof.
    intros E xs. destruct (stab_stuck_lanes [] xs) as [H _]; [cbn; rewrite E; discriminate|]. exact H.
  Qed.
End Stab.
