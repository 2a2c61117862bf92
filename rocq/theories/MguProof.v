(** Proofs about the minimal gated unit cells. *)
From Coq Require Import String.
Require Import Verif.BaseLemmas Verif.GenProof Verif.AddProof Verif.KernelProof Verif.LinearModel Verif.LinearProof Verif.ChainSpec Verif.ChainProof Verif.MetricProof
  Verif.MguModel.
Open Scope Z_scope.

Lemma map2_snoc {A B C} (f : A -> B -> C) l x m y : length l = length m -> map2 f (l ++ [x]) (m ++ [y]) = map2 f l m ++ [f x y].
Proof.
  revert m; induction l as [|a l IH]; intros [|b m] H; try discriminate; [reflexivity|].
  cbn [app map2]. cbn [length] in H. rewrite IH by lia. reflexivity.
Qed.

Lemma batch_shape_ok B n x : batch_ok B n x -> length x = B /\ Forall (fun r => length r = n) x.
Proof. intros [H1 H2]. split; [exact H1|]. eapply Forall_impl; [|exact H2]. intros r [H _]. exact H. Qed.

Lemma cat1_ok B n m a b : batch_ok B n a -> batch_ok B m b -> batch_ok B (n + m) (cat1 a b).
Proof.
  intros [La Ha] [Lb Hb]. unfold cat1. subst B. split.
  - clear Ha Hb. revert b Lb; induction a as [|x a IH]; intros [|y b] Lb; try discriminate; [reflexivity|].
    cbn [map2 length]. cbn [length] in Lb. rewrite IH by lia. reflexivity.
  - revert b Lb Hb; induction Ha as [|x a [L1 B1] Ha IH]; intros [|y b] Lb Hb; try discriminate; [constructor|].
    inversion Hb as [|? ? [L2 B2] Hb']; subst. cbn [map2]. constructor.
    + split; [rewrite app_length; reflexivity|]. apply BaseLemmas.bits_app. split; assumption.
    + apply IH; [cbn [length] in Lb; lia|exact Hb'].
Qed.

Lemma tab2_ok B n f : (forall b i, (b < B)%nat -> (i < n)%nat -> bit (f b i)) -> batch_ok B n (tab2 B n f).
Proof.
  intros H. split; [apply tab_length|]. unfold tab2, tab. apply Forall_forall. intros r Hr. apply in_map_iff in Hr.
  destruct Hr as (b & <- & Hb). apply in_seq in Hb. split; [rewrite map_length, seq_length; reflexivity|].
  apply Forall_forall. intros v Hv. apply in_map_iff in Hv. destruct Hv as (i & <- & Hi). apply in_seq in Hi.
  apply H; lia.
Qed.

Lemma fsuadd_call_bit a s i : bit (snd (fsuadd_call a s i)).
Proof.
  destruct i as [[col sc] en]. unfold fsuadd_call, acc_step. cbn [snd].
  destruct (qge _ _); cbn; [right|left]; reflexivity.
Qed.

Lemma fsuadd_call_bits a s h : bits (outs (fsuadd_call a) s h).
Proof.
  revert s; induction h as [|i h IH]; intros s; [constructor|]. rewrite outs_cons. constructor; [apply fsuadd_call_bit|apply IH].
Qed.

Lemma bits_nth l i : bits l -> bit (nth i l 0).
Proof.
  intros H. destruct (Nat.lt_ge_cases i (length l)) as [L|L]; [|rewrite nth_overflow by lia; left; reflexivity].
  unfold bits in H. rewrite Forall_forall in H. apply H, nth_In, L.
Qed.

(** The linear layer, one more call. *)
Lemma flin_next c a B h x s os : pc_shape c -> (1 <= B)%nat ->
  Forall (batch_ok B (pc_in c)) h -> batch_ok B (pc_in c) x ->
  run_r (flin_step c a) (flin_init c) (no_args h) = Ok (s, os) ->
  exists s' o, flin_step c a s (x, None, None) = Ok (s', o) /\ batch_ok B (pc_out c) o /\
    run_r (flin_step c a) (flin_init c) (no_args (h ++ [x])) = Ok (s', os ++ [o]).
Proof.
  intros Hs HB Hh Hx E.
  assert (Hh2 : Forall (batch_ok B (pc_in c)) (fl_inputs (no_args (h ++ [x])))).
  { rewrite fl_inputs_no_args. apply Forall_app. split; [exact Hh|constructor; [exact Hx|constructor]]. }
  destruct (flin_run c a B _ Hs HB Hh2) as (pc & _ & R).
  assert (L : length (no_args (h ++ [x])) = Datatypes.S (length h)).
  { unfold no_args. rewrite map_length, app_length. cbn [length]. lia. }
  rewrite L, tab_S in R.
  assert (Hb : batch_ok B (pc_out c) (tab2 B (pc_out c) (fun b o =>
     nth (length h) (outs (fsuadd_call a) (fsuadd_init a) (fl_calls c (no_args (h ++ [x])) b o)) 0))).
  { apply tab2_ok. intros b i _ _. apply bits_nth, fsuadd_call_bits. }
  revert R Hb. generalize (tab (length h) (fun t : nat => tab2 B (pc_out c) (fun b o : nat =>
     nth t (outs (fsuadd_call a) (fsuadd_init a) (fl_calls c (no_args (h ++ [x])) b o)) 0))).
  match goal with |- forall l, _ = Ok (?A, l ++ [?o]) -> _ => generalize A; generalize o end.
  intros o s' l R Hb.
  replace (no_args (h ++ [x])) with (no_args h ++ [(x, None, None)]) in * by (unfold no_args; rewrite map_app; reflexivity).
  assert (R2 := R). rewrite run_r_snoc, E in R2. destruct (flin_step c a s (x, None, None)) as [[s1 o1]|e]; [|discriminate].
  apply (f_equal (fun r => match r with Ok p => p | Err _ => (s1, []) end)) in R2.
  pose proof (f_equal fst R2) as H1. pose proof (f_equal snd R2) as H2. cbn [fst snd] in H1, H2.
  apply app_inj_tail in H2. destruct H2 as [H2 H3]. subst. exists s', o. split; [reflexivity|]. split; [exact Hb|exact R].
Qed.

(** ** Composition of the entry modules *)
Lemma gate_compose c B xs :
  let fg := outs (fsuadd_step (mgu_sig_cfg c)) (fsuadd_init (mgu_sig_cfg c)) (map (fun x => [x; 1]) xs) in
  final (gate_step c B) (gate_init c) xs =
    (final (fsuadd_step (mgu_sig_cfg c)) (fsuadd_init (mgu_sig_cfg c)) (map (fun x => [x; 1]) xs),
     final (fsumul_static_step Bipolar B (mg_hrng c)) fsumul_static_init fg) /\
  map fst (outs (gate_step c B) (gate_init c) xs) = fg /\
  map snd (outs (gate_step c B) (gate_init c) xs) = outs (fsumul_static_step Bipolar B (mg_hrng c)) fsumul_static_init fg.
Proof.
  induction xs as [|x xs IH] using rev_ind; [repeat split|]. cbv zeta in *. destruct IH as (E1 & E2 & E3).
  rewrite map_app. cbn [map]. rewrite !outs_snoc, !final_snoc, !map_app, E1, E2, E3. unfold gate_step at 1 2 3. cbn [fst snd].
  rewrite ?outs_snoc, ?final_snoc.
  destruct (fsuadd_step (mgu_sig_cfg c) _ [x; 1]) as [s1 fg]. cbn [fst snd].
  destruct (fsumul_static_step Bipolar B (mg_hrng c) _ fg) as [s2 fh]. repeat split.
Qed.

Lemma out_compose c xs :
  let p := outs (fsumul_is_step Bipolar (mg_wmul c) (mg_nrng c)) (fsumul_is_init (mg_wmul c)) (map (fun i => (fst (fst i), snd i)) xs) in
  let cols := map2 (fun i q => [snd i; 1 - q; snd (fst i)]) xs p in
  final (out_step c) (out_init c) xs =
    (final (fsumul_is_step Bipolar (mg_wmul c) (mg_nrng c)) (fsumul_is_init (mg_wmul c)) (map (fun i => (fst (fst i), snd i)) xs),
     final (fsuadd_step (mgu_hy_cfg c)) (fsuadd_init (mgu_hy_cfg c)) cols) /\
  map fst (outs (out_step c) (out_init c) xs) = p /\
  map snd (outs (out_step c) (out_init c) xs) = outs (fsuadd_step (mgu_hy_cfg c)) (fsuadd_init (mgu_hy_cfg c)) cols.
Proof.
  induction xs as [|[[fg fh] ng] xs IH] using rev_ind; [repeat split|]. cbv zeta in *. destruct IH as (E1 & E2 & E3).
  rewrite map_app. cbn [map fst snd]. rewrite !outs_snoc, !final_snoc, !map_app, E1, E2, E3.
  rewrite map2_snoc by (rewrite outs_length, map_length; reflexivity). rewrite outs_snoc, final_snoc. cbn [map fst snd].
  unfold out_step. cbn [fst snd].
  destruct (fsumul_is_step Bipolar (mg_wmul c) (mg_nrng c) _ (fg, ng)) as [s1 p]. cbn [fst snd].
  destruct (fsuadd_step (mgu_hy_cfg c) _ [ng; 1 - p; fh]) as [s2 y]. repeat split.
Qed.

(** ** A history of the cell *)
Definition mgu_shape (c : mgu_cfg) : Prop :=
  pc_shape (fst (mg_f c)) /\ pc_in (fst (mg_f c)) = (mg_hid c + mg_in c)%nat /\ pc_out (fst (mg_f c)) = mg_hid c /\
  pc_shape (fst (mg_n c)) /\ pc_in (fst (mg_n c)) = (mg_hid c + mg_in c)%nat /\ pc_out (fst (mg_n c)) = mg_hid c.

Definition call_ok (B : nat) (c : mgu_cfg) (p : list (list Z) * list (list Z)) : Prop :=
  batch_ok B (mg_in c) (fst p) /\ batch_ok B (mg_hid c) (snd p).

Definition trip (c : mgu_cfg) (hxb : nat -> nat -> Z) (b j : nat) (fgin : list Z) (ng : list Z) : list (Z * Z * Z) :=
  map2 pair (outs (gate_step c (hxb b j)) (gate_init c) fgin) ng.

Record mgu_inv (c : mgu_cfg) (B : nat) (hxb : nat -> nat -> Z) (h : list (list (list Z) * list (list Z))) (s : mgu_st) (os : list mgu_obs) : Prop := {
  iv_len : length os = length h;
  iv_some : h <> [] -> exists m, ms_gate s = Some m /\ length m = B;
  iv_f : run_r (flin_step (fst (mg_f c)) (snd (mg_f c))) (flin_init (fst (mg_f c))) (no_args (map (fun p => cat1 (snd p) (fst p)) h))
         = Ok (ms_f s, map mo_fg_in os);
  iv_n : run_r (flin_step (fst (mg_n c)) (snd (mg_n c))) (flin_init (fst (mg_n c))) (no_args (map2 cat1 (map mo_fg_hx os) (map fst h)))
         = Ok (ms_n s, map mo_ng os);
  iv_gate : state_rows B (mg_hid c) (gate_init c) (ms_gate s) =
            Ok (tab2 B (mg_hid c) (fun b j => final (gate_step c (hxb b j)) (gate_init c) (lane (map mo_fg_in os) b j)));
  iv_out : state_rows B (mg_hid c) (out_init c) (ms_out s) =
           Ok (tab2 B (mg_hid c) (fun b j => final (out_step c) (out_init c)
                 (trip c hxb b j (lane (map mo_fg_in os) b j) (lane (map mo_ng os) b j))));
  iv_lanes : forall b j, (b < B)%nat -> (j < mg_hid c)%nat ->
     map2 pair (lane (map mo_fg os) b j) (lane (map mo_fg_hx os) b j) =
       outs (gate_step c (hxb b j)) (gate_init c) (lane (map mo_fg_in os) b j) /\
     map2 pair (lane (map mo_fg_ng os) b j) (lane (map mo_hy os) b j) =
       outs (out_step c) (out_init c) (trip c hxb b j (lane (map mo_fg_in os) b j) (lane (map mo_ng os) b j));
  iv_bits : Forall (fun o => batch_ok B (mg_hid c) (mo_fg_in o) /\ batch_ok B (mg_hid c) (mo_fg o) /\
     batch_ok B (mg_hid c) (mo_fg_hx o) /\ batch_ok B (mg_hid c) (mo_ng o) /\ batch_ok B (mg_hid c) (mo_fg_ng o) /\
     batch_ok B (mg_hid c) (mo_hy o)) os
}.

Lemma static_bit m B rng s x : bit x -> bit (snd (fsumul_static_step m B rng s x)).
Proof.
  intros Hx. destruct s as [i1 i0]. unfold fsumul_static_step, bsgen_bit. destruct m; cbn [snd];
  destruct Hx; subst; 
    repeat match goal with |- context [?a >? ?b] => destruct (a >? b) end; first [left; reflexivity | right; reflexivity].
Qed.

Lemma is_bit m w rng s p : bit (fst p) -> bit (snd (fsumul_is_step m w rng s p)).
Proof.
  intros Hx. destruct p as [x y]. unfold fsumul_is_step, shiftreg_step. cbn [fst] in Hx. cbv zeta.
  destruct m; cbn [snd]; destruct Hx; subst; 
    repeat match goal with |- context [?a >? ?b] => destruct (a >? b) end; first [left; reflexivity | right; reflexivity].
Qed.

Lemma gate_bits c B s x : bit (fst (snd (gate_step c B s x))) /\ bit (snd (snd (gate_step c B s x))).
Proof.
  unfold gate_step.
  pose proof (fsuadd_call_bit (mgu_sig_cfg c) (fst s) ([x; 1], None, None)) as H1.
  change (fsuadd_call (mgu_sig_cfg c) (fst s) ([x; 1], None, None)) with (fsuadd_step (mgu_sig_cfg c) (fst s) [x; 1]) in H1.
  destruct (fsuadd_step (mgu_sig_cfg c) (fst s) [x; 1]) as [s1 fg]. cbn [snd] in H1.
  pose proof (static_bit Bipolar B (mg_hrng c) (snd s) fg H1) as H2.
  destruct (fsumul_static_step Bipolar B (mg_hrng c) (snd s) fg) as [s2 fh]. split; assumption.
Qed.

Lemma out_bits c s i : bit (fst (fst i)) -> bit (fst (snd (out_step c s i))) /\ bit (snd (snd (out_step c s i))).
Proof.
  destruct i as [[fg fh] ng]. cbn [fst]. intros Hf. unfold out_step.
  pose proof (is_bit Bipolar (mg_wmul c) (mg_nrng c) (fst s) (fg, ng) Hf) as H1.
  destruct (fsumul_is_step Bipolar (mg_wmul c) (mg_nrng c) (fst s) (fg, ng)) as [s1 p]. cbn [snd] in H1.
  pose proof (fsuadd_call_bit (mgu_hy_cfg c) (snd s) ([ng; 1 - p; fh], None, None)) as H2.
  change (fsuadd_call (mgu_hy_cfg c) (snd s) ([ng; 1 - p; fh], None, None)) with (fsuadd_step (mgu_hy_cfg c) (snd s) [ng; 1 - p; fh]) in H2.
  destruct (fsuadd_step (mgu_hy_cfg c) (snd s) [ng; 1 - p; fh]) as [s2 y]. split; assumption.
Qed.

Lemma state_rows_tab2 {A} B H (i : A) (f : nat -> nat -> A) : state_rows B H i (Some (tab2 B H f)) = Ok (tab2 B H f).
Proof. unfold state_rows, tab2. rewrite tab_length, Nat.eqb_refl. reflexivity. Qed.

Lemma batch_forallb B n x : batch_ok B n x -> forallb (fun r => (length r =? n)%nat) x = true.
Proof. intros [_ H]. apply forallb_len. eapply Forall_impl; [|exact H]. intros r [L _]. exact L. Qed.

Lemma map2_tab2 {A B C} (g : A -> B -> C) n r f1 f2 :
  map2 (map2 g) (tab2 n r f1) (tab2 n r f2) = tab2 n r (fun b o => g (f1 b o) (f2 b o)).
Proof. unfold tab2. rewrite map2_tab. apply tab_ext. intros b _. apply map2_tab. Qed.

Lemma mgu_next c B hxb h s os p : mgu_shape c -> (1 <= B)%nat ->
  hx_rows c B = Ok (tab2 B (mg_hid c) hxb) ->
  Forall (call_ok B c) h -> call_ok B c p -> mgu_inv c B hxb h s os ->
  exists s' o, mgu_step c s p = Ok (s', o) /\ mgu_inv c B hxb (h ++ [p]) s' (os ++ [o]).
Proof.
  intros (F1 & F2 & F3 & N1 & N2 & N3) HB Hx Hh Hp I. destruct p as [input hx]. destruct Hp as [Hi Hhx]. cbn [fst snd] in Hi, Hhx.
  assert (Hcat : Forall (batch_ok B (pc_in (fst (mg_f c)))) (map (fun p => cat1 (snd p) (fst p)) h)).
  { rewrite F2. apply Forall_forall. intros m Hm. apply in_map_iff in Hm. destruct Hm as (q & <- & Hq).
    rewrite Forall_forall in Hh. destruct (Hh _ Hq). apply cat1_ok; assumption. }
  assert (Hcat1 : batch_ok B (pc_in (fst (mg_f c))) (cat1 hx input)) by (rewrite F2; apply cat1_ok; assumption).
  destruct (flin_next _ _ B _ _ _ _ F1 HB Hcat Hcat1 (iv_f _ _ _ _ _ _ I)) as (f' & fgin & Ef & Hfgin & Rf).
  rewrite F3 in Hfgin. clear Hcat Hcat1.
  set (gs := fun b j => final (gate_step c (hxb b j)) (gate_init c) (lane (map mo_fg_in os) b j)).
  set (g := fun b j => gate_step c (hxb b j) (gs b j) (entry2 fgin b j)).
  set (fh := tab2 B (mg_hid c) (fun b j => snd (snd (g b j)))).
  assert (Hg : forall b j, bit (fst (snd (g b j))) /\ bit (snd (snd (g b j)))) by (intros b j; exact (gate_bits c (hxb b j) (gs b j) (entry2 fgin b j))).
  assert (Hfh : batch_ok B (mg_hid c) fh) by (apply tab2_ok; intros b j _ _; exact (proj2 (Hg b j))).
  assert (Lh : length (map mo_fg_hx os) = length (map fst h)) by (rewrite !map_length; exact (iv_len _ _ _ _ _ _ I)).
  assert (Hcat : Forall (batch_ok B (pc_in (fst (mg_n c)))) (map2 cat1 (map mo_fg_hx os) (map fst h))).
  { rewrite N2. pose proof (iv_bits _ _ _ _ _ _ I) as Hb. clear -Hb Hh. revert os Hb. induction Hh as [|p h [Hp _] Hh IH]; intros [|o os] Hb; try constructor.
    - inversion Hb as [|? ? (_ & _ & H3 & _) ?]; subst. cbn [map]. apply cat1_ok; assumption.
    - inversion Hb; subst. cbn [map]. apply IH. assumption. }
  assert (Hcat1 : batch_ok B (pc_in (fst (mg_n c))) (cat1 fh input)) by (rewrite N2; apply cat1_ok; assumption).
  destruct (flin_next _ _ B _ _ _ _ N1 HB Hcat Hcat1 (iv_n _ _ _ _ _ _ I)) as (n' & ng & En & Hng & Rn).
  rewrite N3 in Hng. clear Hcat Hcat1.
  set (ots := fun b j => final (out_step c) (out_init c) (trip c hxb b j (lane (map mo_fg_in os) b j) (lane (map mo_ng os) b j))).
  set (o := fun b j => out_step c (ots b j) (fst (snd (g b j)), snd (snd (g b j)), entry2 ng b j)).
  exists {| ms_f := f'; ms_n := n'; ms_gate := Some (tab2 B (mg_hid c) (fun b j => fst (g b j)));
            ms_out := Some (tab2 B (mg_hid c) (fun b j => fst (o b j))) |}.
  exists {| mo_fg_in := fgin; mo_fg := tab2 B (mg_hid c) (fun b j => fst (snd (g b j))); mo_fg_hx := fh; mo_ng := ng;
            mo_fg_ng := tab2 B (mg_hid c) (fun b j => fst (snd (o b j)));
            mo_hy := tab2 B (mg_hid c) (fun b j => snd (snd (o b j))) |}.
  split.
  - unfold mgu_step. rewrite (batch_forallb _ _ _ Hi), (batch_forallb _ _ _ Hhx).
    rewrite (proj1 Hi), (proj1 Hhx), Nat.eqb_refl. cbn [negb].
    rewrite (iv_gate _ _ _ _ _ _ I), (iv_out _ _ _ _ _ _ I), Ef, Hx. cbn [bind].
    assert (Eg : map2 (map2 (fun sb x => gate_step c (snd sb) (fst sb) x))
        (map2 (map2 pair) (tab2 B (mg_hid c) gs) (tab2 B (mg_hid c) hxb)) fgin = tab2 B (mg_hid c) g).
    { rewrite (batch_tab _ _ _ Hfgin), !map2_tab2. apply tab2_ext. intros b j Hb Hj. reflexivity. }
    fold gs. rewrite Eg, !map_map_tab2. fold fh. rewrite En. cbn [bind].
    assert (Eo : map2 (map2 (fun st i => out_step c st i)) (tab2 B (mg_hid c) ots)
        (map2 (map2 (fun r x => (fst (snd r), snd (snd r), x))) (tab2 B (mg_hid c) g) ng) = tab2 B (mg_hid c) o).
    { rewrite (batch_tab _ _ _ Hng), !map2_tab2. apply tab2_ext. intros b j Hb Hj. reflexivity. }
    fold ots. rewrite Eo, !map_map_tab2. reflexivity.
  - assert (Hl : forall b j, (b < B)%nat -> (j < mg_hid c)%nat ->
       trip c hxb b j (lane (map mo_fg_in os) b j ++ [entry2 fgin b j]) (lane (map mo_ng os) b j ++ [entry2 ng b j]) =
       trip c hxb b j (lane (map mo_fg_in os) b j) (lane (map mo_ng os) b j) ++ [(fst (snd (g b j)), snd (snd (g b j)), entry2 ng b j)]).
    { intros b j _ _. unfold trip. rewrite outs_snoc, map2_snoc.
      - fold (gs b j). fold (g b j). destruct (snd (g b j)). reflexivity.
      - rewrite outs_length, !lane_length, !map_length. reflexivity. }
    split; cbn [ms_f ms_n ms_gate ms_out].
    + rewrite !app_length, (iv_len _ _ _ _ _ _ I). reflexivity.
    + intros _. eexists. split; [reflexivity|apply tab_length].
    + rewrite !map_app. exact Rf.
    + rewrite !map_app. cbn [map fst mo_fg_hx mo_ng]. rewrite map2_snoc by exact Lh. exact Rn.
    + rewrite state_rows_tab2. apply (f_equal Ok). apply tab2_ext. intros b j Hb Hj. rewrite !map_app. cbn [map mo_fg_in].
      rewrite lane_snoc, final_snoc. reflexivity.
    + rewrite state_rows_tab2. apply (f_equal Ok). apply tab2_ext. intros b j Hb Hj. rewrite !map_app. cbn [map mo_fg_in mo_ng].
      rewrite !lane_snoc, Hl, final_snoc by assumption. reflexivity.
    + intros b j Hb Hj. destruct (iv_lanes _ _ _ _ _ _ I b j Hb Hj) as [L1 L2].
      rewrite !map_app. cbn [map mo_fg_in mo_fg mo_fg_hx mo_ng mo_fg_ng mo_hy]. rewrite !lane_snoc, Hl by assumption.
      rewrite !map2_snoc by (rewrite !lane_length, !map_length; reflexivity).
      rewrite L1, L2, !outs_snoc. unfold fh. rewrite !tab2_entry by assumption. split; (apply f_equal; apply (f_equal (fun x => [x]))).
      * fold (gs b j). fold (g b j). destruct (snd (g b j)). reflexivity.
      * fold (ots b j). fold (o b j). destruct (snd (o b j)). reflexivity.
    + apply Forall_app. split; [exact (iv_bits _ _ _ _ _ _ I)|]. constructor; [|constructor].
      cbn [mo_fg_in mo_fg mo_fg_hx mo_ng mo_fg_ng mo_hy]. split; [exact Hfgin|]. split; [apply tab2_ok; intros b j _ _; exact (proj1 (Hg b j))|].
      split; [exact Hfh|]. split; [exact Hng|]. split; apply tab2_ok; intros b j _ _; pose proof (out_bits c (ots b j) (fst (snd (g b j)), snd (snd (g b j)), entry2 ng b j) (proj1 (Hg b j))) as [O1 O2]; [exact O1|exact O2].
Qed.

Lemma mgu_start c B hxb : mgu_inv c B hxb [] (mgu_init c) [].
Proof.
  split; try reflexivity.
  - intros H. exfalso. apply H. reflexivity.
  - cbn [mgu_init ms_gate state_rows map]. apply (f_equal Ok). rewrite repeat_tab. unfold tab2. apply tab_ext. intros b _. apply repeat_tab.
  - cbn [mgu_init ms_out state_rows map]. apply (f_equal Ok). rewrite repeat_tab. unfold tab2. apply tab_ext. intros b _. apply repeat_tab.
  - intros b j _ _. split; reflexivity.
  - constructor.
Qed.

Lemma mgu_runs c B hxb h : mgu_shape c -> (1 <= B)%nat -> hx_rows c B = Ok (tab2 B (mg_hid c) hxb) -> Forall (call_ok B c) h ->
  exists s os, run_r (mgu_step c) (mgu_init c) h = Ok (s, os) /\ mgu_inv c B hxb h s os.
Proof.
  intros Hs HB Hx. induction h as [|p h IH] using rev_ind; intros Hh.
  - exists (mgu_init c), []. split; [reflexivity|apply mgu_start].
  - apply Forall_app in Hh. destruct Hh as [Hh Hp]. inversion Hp as [|? ? Hp' _]; subst.
    destruct (IH Hh) as (s & os & E & I). destruct (mgu_next c B hxb h s os p Hs HB Hx Hh Hp' I) as (s' & o & Es & I').
    exists s', (os ++ [o]). split; [|exact I']. rewrite run_r_snoc, E, Es. reflexivity.
Qed.

(** ** The lanes of a history *)
Lemma map_fst_map2 {A B} (l : list A) (m : list B) : length l = length m -> map fst (map2 pair l m) = l /\ map snd (map2 pair l m) = m.
Proof.
  revert m; induction l as [|x l IH]; intros [|y m] H; try discriminate; [split; reflexivity|].
  cbn [length] in H. destruct (IH m ltac:(lia)) as [E1 E2]. cbn [map2 map fst snd]. rewrite E1, E2. split; reflexivity.
Qed.

Lemma trip_shape xs ng p : length (xs : list (Z * Z)) = length ng -> length p = length ng ->
  map (fun i : Z * Z * Z => (fst (fst i), snd i)) (map2 pair xs ng) = map2 pair (map fst xs) ng /\
  map2 (fun (i : Z * Z * Z) q => [snd i; 1 - q; snd (fst i)]) (map2 pair xs ng) p =
  map (fun t => [nth t ng 0; 1 - nth t p 0; nth t (map snd xs) 0]) (seq 0 (length ng)).
Proof.
  revert xs p; induction ng as [|n ng IH]; intros [|x xs] [|q p] H1 H2; try discriminate; [split; reflexivity|].
  cbn [length] in H1, H2. destruct (IH xs p ltac:(lia) ltac:(lia)) as [E1 E2].
  cbn [map2 map fst snd length seq nth]. rewrite E1, E2. split; [reflexivity|]. apply f_equal.
  rewrite <- seq_shift, map_map. reflexivity.
Qed.

(** hx_buffer entry seen by (b, j). *)
Definition hx_at (c : mgu_cfg) (b j : nat) : Z := entry2 (mg_hx c) (if (length (mg_hx c) =? 1)%nat then 0%nat else b) j.
Definition hx_shape (c : mgu_cfg) (B : nat) : Prop := batch_shape B (mg_hid c) (mg_hx c) \/ batch_shape 1 (mg_hid c) (mg_hx c).

Lemma hx_rows_ok c B : hx_shape c B -> hx_rows c B = Ok (tab2 B (mg_hid c) (hx_at c)).
Proof.
  intros H. unfold hx_rows.
  assert (E : forall m : list (list Z), Forall (fun r => length r = mg_hid c) m ->
    fold_right (fun r acc => bind (bcast (mg_hid c) r) (fun r' => bind acc (fun a => Ok (r' :: a)))) (Ok []) m = Ok m).
  { intros m Hm. induction Hm as [|r m Hr Hm IH]; [reflexivity|]. cbn [fold_right]. rewrite IH, (bcast_same _ _ Hr). reflexivity. }
  assert (T : forall m : list (list Z), length m = B -> Forall (fun r => length r = mg_hid c) m -> m = tab2 B (mg_hid c) (entry2 m)).
  { intros m L F. exact (matrix_tab 0 B (mg_hid c) m L F). }
  destruct H as [[L F]|[L F]].
  - rewrite (bcast_same _ _ L). cbn [bind]. rewrite (E _ F). apply (f_equal Ok). rewrite (T _ L F) at 1. apply tab2_ext.
    intros b j Hb Hj. unfold hx_at. destruct (Nat.eqb_spec (length (mg_hx c)) 1) as [L1|]; [|reflexivity].
    replace b with 0%nat by lia. reflexivity.
  - unfold hx_at. destruct (mg_hx c) as [|r [|? ?]]; try discriminate L. inversion F as [|? ? Hr _]; subst.
    cbn [length Nat.eqb]. unfold bcast at 1. cbn [length].
    assert (E2 : (if (1 =? B)%nat then Ok [r] else Ok (repeat r B)) = Ok (repeat r B)).
    { destruct (Nat.eqb_spec 1 B) as [<-|]; reflexivity. }
    rewrite E2. cbn [bind]. rewrite (E (repeat r B)).
    + apply (f_equal Ok). rewrite repeat_tab. unfold tab2. apply tab_ext. intros b _. rewrite <- Hr. unfold entry2. cbn [nth]. apply tab_of.
    + apply Forall_forall. intros x Hx. apply repeat_spec in Hx. subst. exact Hr.
Qed.

Theorem mgu_cell : forall c B h, mgu_shape c -> (1 <= B)%nat -> hx_shape c B -> Forall (call_ok B c) h ->
  exists os, outputs (run_r (mgu_step c) (mgu_init c) h) = Some os /\ length os = length h /\
    Forall (fun o => batch_ok B (mg_hid c) (mo_fg_in o) /\ batch_ok B (mg_hid c) (mo_fg o) /\
      batch_ok B (mg_hid c) (mo_fg_hx o) /\ batch_ok B (mg_hid c) (mo_ng o) /\ batch_ok B (mg_hid c) (mo_fg_ng o) /\
      batch_ok B (mg_hid c) (mo_hy o)) os /\
    outputs (run_r (flin_step (fst (mg_f c)) (snd (mg_f c))) (flin_init (fst (mg_f c)))
               (no_args (map (fun p => map2 (@app Z) (snd p) (fst p)) h))) = Some (map mo_fg_in os) /\
    outputs (run_r (flin_step (fst (mg_n c)) (snd (mg_n c))) (flin_init (fst (mg_n c)))
               (no_args (map2 (map2 (@app Z)) (map mo_fg_hx os) (map fst h)))) = Some (map mo_ng os) /\
    forall b j, (b < B)%nat -> (j < mg_hid c)%nat ->
      let fg_in := lane (map mo_fg_in os) b j in
      let fg := lane (map mo_fg os) b j in
      let fg_hx := lane (map mo_fg_hx os) b j in
      let ng := lane (map mo_ng os) b j in
      let fg_ng := lane (map mo_fg_ng os) b j in
      let sig := {| fa_mode := Bipolar; fa_scale := None; fa_depth := mg_depth c; fa_entry := None |} in
      let add := {| fa_mode := Bipolar; fa_scale := Some 1%Q; fa_depth := mg_depth c; fa_entry := Some 3 |} in
      fg = outs (fsuadd_step sig) (fsuadd_init sig) (map (fun x => [x; 1]) fg_in) /\
      fg_hx = outs (fsumul_static_step Bipolar (hx_at c b j) (mg_hrng c)) fsumul_static_init fg /\
      fg_ng = outs (fsumul_is_step Bipolar (mg_wmul c) (mg_nrng c)) (fsumul_is_init (mg_wmul c)) (map2 pair fg ng) /\
      lane (map mo_hy os) b j = outs (fsuadd_step add) (fsuadd_init add)
        (map (fun t => [nth t ng 0; 1 - nth t fg_ng 0; nth t fg_hx 0]) (seq 0 (length h))).
Proof.
  intros c B h Hs HB Hx Hh.
  destruct (mgu_runs c B (hx_at c) h Hs HB (hx_rows_ok c B Hx) Hh) as (s & os & E & I).
  exists os. split; [rewrite E; reflexivity|]. split; [exact (iv_len _ _ _ _ _ _ I)|]. split; [exact (iv_bits _ _ _ _ _ _ I)|].
  pose proof (iv_f _ _ _ _ _ _ I) as F. pose proof (iv_n _ _ _ _ _ _ I) as N.
  split; [exact (f_equal outputs F)|]. split; [exact (f_equal outputs N)|].
  intros b j Hb Hj. destruct (iv_lanes _ _ _ _ _ _ I b j Hb Hj) as [L1 L2].
  destruct (gate_compose c (hx_at c b j) (lane (map mo_fg_in os) b j)) as (_ & G1 & G2).
  assert (Ll : forall f g : mgu_obs -> list (list Z), length (lane (map f os) b j) = length (lane (map g os) b j))
    by (intros; rewrite !lane_length, !map_length; reflexivity).
  assert (Lo : forall f : mgu_obs -> list (list Z), length (lane (map f os) b j) = length h)
    by (intros; rewrite lane_length, map_length; exact (iv_len _ _ _ _ _ _ I)).
  destruct (map_fst_map2 _ _ (Ll mo_fg mo_fg_hx)) as [A1 A2]. rewrite L1 in A1, A2.
  destruct (map_fst_map2 _ _ (Ll mo_fg_ng mo_hy)) as [B1 B2]. rewrite L2 in B1, B2.
  rewrite A1 in G1. rewrite A2 in G2.
  destruct (out_compose c (trip c (hx_at c) b j (lane (map mo_fg_in os) b j) (lane (map mo_ng os) b j))) as (_ & O1 & O2).
  rewrite B1 in O1. rewrite B2 in O2. unfold trip in O1, O2.
  assert (Lg : length (outs (gate_step c (hx_at c b j)) (gate_init c) (lane (map mo_fg_in os) b j)) = length (lane (map mo_ng os) b j))
    by (rewrite outs_length; apply Ll).
  destruct (trip_shape _ _ (lane (map mo_fg_ng os) b j) Lg (Ll _ _)) as [T1 T2].
  rewrite T1, A1 in O1. rewrite T1, A1, <- O1, T2, A2, Lo in O2.
  cbn zeta. split; [exact G1|]. split; [rewrite <- G1 in G2; exact G2|]. split; [exact O1|exact O2].
Qed.

(** ** Counts *)
Lemma total_three (ng p fh : list Z) n : bits ng -> bits p -> bits fh -> (n <= length ng)%nat -> (n <= length p)%nat -> (n <= length fh)%nat ->
  total_ones (map (fun t => [nth t ng 0; 1 - nth t p 0; nth t fh 0]) (seq 0 n)) =
  ones (firstn n ng) + (Z.of_nat n - ones (firstn n p)) + ones (firstn n fh).
Proof.
  intros H1 H2 H3. induction n as [|n IH]; intros L1 L2 L3; [reflexivity|].
  rewrite seq_S, map_app. cbn [map]. rewrite (total_snoc (map (fun t => [nth t ng 0; 1 - nth t p 0; nth t fh 0]) (seq 0 n))), IH by lia.
  change (0 + n)%nat with n.
  assert (F : forall l : list Z, (n < length l)%nat -> firstn (Datatypes.S n) l = firstn n l ++ [nth n l 0]).
  { intros l Hl. clear -Hl. revert n Hl. induction l as [|x l IH]; intros n Hl; [cbn in Hl; lia|].
    destruct n as [|n]; [reflexivity|]. cbn [length] in Hl. cbn [firstn nth app]. rewrite <- IH by lia. reflexivity. }
  rewrite !F by lia.
  pose proof (bits_nth ng n H1) as B1. pose proof (bits_nth p n H2) as B2. pose proof (bits_nth fh n H3) as B3.
  rewrite (ones_app (firstn n ng)), (ones_app (firstn n p)), (ones_app (firstn n fh)), !ones_bit by assumption.
  assert (E : ones [nth n ng 0; 1 - nth n p 0; nth n fh 0] = nth n ng 0 + (1 - nth n p 0) + nth n fh 0).
  { destruct B1 as [-> | ->], B2 as [-> | ->], B3 as [-> | ->]; reflexivity. }
  rewrite E. lia.
Qed.

Theorem mgu_counts : forall c B h, mgu_shape c -> (1 <= B)%nat -> hx_shape c B -> Forall (call_ok B c) h ->
  4 <= mg_depth c -> (0 < length (mg_hrng c))%nat ->
  exists os, outputs (run_r (mgu_step c) (mgu_init c) h) = Some os /\
    forall b j, (b < B)%nat -> (j < mg_hid c)%nat ->
      let fg_in := lane (map mo_fg_in os) b j in
      let fg := lane (map mo_fg os) b j in
      let fg_hx := lane (map mo_fg_hx os) b j in
      let ng := lane (map mo_ng os) b j in
      let fg_ng := lane (map mo_fg_ng os) b j in
      let hy := lane (map mo_hy os) b j in
      ones fg = (ones fg_in + zlen h) / 2 /\
      ones fg_hx = below (mg_hrng c) (hx_at c b j) (Z.to_nat (ones fg)) +
                   (zeros fg - below (mg_hrng c) (hx_at c b j) (Z.to_nat (zeros fg))) /\
      let level p := inject_Z (ones (firstn p ng) - ones (firstn p fg_ng) + ones (firstn p fg_hx)) in
      (unclamped (qpow2 (mg_depth c - 2)) 1 level (fun t => ones (firstn t hy)) (length h) ->
       forall k, Z.of_nat k <= ones hy <-> climbs 1 level (length h) k).
Proof.
  intros c B h Hs HB Hx Hh Hd Hr. destruct (mgu_cell c B h Hs HB Hx Hh) as (os & E & L & Hb & _ & _ & H).
  exists os. split; [exact E|]. intros b j Hbb Hj. specialize (H b j Hbb Hj). cbn zeta in H. destruct H as (H1 & H2 & H3 & H4).
  assert (Lo : forall f : mgu_obs -> list (list Z), length (lane (map f os) b j) = length h)
    by (intros; rewrite lane_length, map_length; exact L).
  assert (Bt : forall f : mgu_obs -> list (list Z), Forall (fun o => batch_ok B (mg_hid c) (f o)) os -> bits (lane (map f os) b j)).
  { intros f Hf. apply (lane_bits B (mg_hid c)); [|exact Hbb|exact Hj]. apply Forall_map. exact Hf. }
  assert (B1 : bits (lane (map mo_fg_in os) b j)) by (apply Bt; eapply Forall_impl; [|exact Hb]; cbv beta; tauto).
  assert (B2 : bits (lane (map mo_fg os) b j)) by (apply Bt; eapply Forall_impl; [|exact Hb]; cbv beta; tauto).
  assert (B3 : bits (lane (map mo_fg_hx os) b j)) by (apply Bt; eapply Forall_impl; [|exact Hb]; cbv beta; tauto).
  assert (B4 : bits (lane (map mo_ng os) b j)) by (apply Bt; eapply Forall_impl; [|exact Hb]; cbv beta; tauto).
  assert (B5 : bits (lane (map mo_fg_ng os) b j)) by (apply Bt; eapply Forall_impl; [|exact Hb]; cbv beta; tauto).
  cbn zeta. split; [|split].
  - assert (Z1 : zlen h = zlen (lane (map mo_fg_in os) b j)) by (unfold zlen; rewrite Lo; reflexivity).
    rewrite Z1. rewrite H1 at 1. rewrite (fsuadd_scaled_exact _ 2).
    + f_equal. clear -B1. generalize dependent (lane (map mo_fg_in os) b j). intros l Hl. unfold total_ones. rewrite map_map.
      induction Hl as [|x xs Hx Hxs IH]; [reflexivity|]. cbn [map zsum]. rewrite IH.
      change (x :: xs) with ([x] ++ xs). rewrite zlen_app, (ones_app [x] xs), (ones_bit x Hx).
      assert (E : ones [x; 1] = x + 1) by (destruct Hx as [->| ->]; reflexivity). rewrite E. change (zlen [x]) with 1. lia.
    + lia.
    + reflexivity.
    + reflexivity.
    + apply Forall_forall. intros col Hc. apply in_map_iff in Hc. destruct Hc as (x & <- & Hxx).
      unfold bits in B1. rewrite Forall_forall in B1. constructor; [apply B1, Hxx|repeat constructor; right; reflexivity].
    + apply Forall_forall. intros col Hc. apply in_map_iff in Hc. destruct Hc as (x & <- & _). reflexivity.
    + cbn [fa_depth]. pose proof (qpow2_ge _ Hd). change (inject_Z (2 * 2 - 1)) with 3%Q. lra.
  - destruct (mul_static_count Bipolar (hx_at c b j) (mg_hrng c) _ Hr B2) as [_ C]. rewrite <- H2 in C. exact C.
  - set (add := {| fa_mode := Bipolar; fa_scale := Some 1%Q; fa_depth := mg_depth c; fa_entry := Some 3 |}) in *.
    set (ng := lane (map mo_ng os) b j) in *. set (p := lane (map mo_fg_ng os) b j) in *. set (fh := lane (map mo_fg_hx os) b j) in *.
    set (hy := lane (map mo_hy os) b j) in *.
    set (cols := map (fun t => [nth t ng 0; 1 - nth t p 0; nth t fh 0]) (seq 0 (length h))) in *.
    assert (Lc : length cols = length h) by (unfold cols; rewrite map_length, seq_length; reflexivity).
    intros Hu k.
    assert (El : forall q, (q <= length h)%nat ->
      (inject_Z (ones (firstn q ng) - ones (firstn q p) + ones (firstn q fh)) ==
       inject_Z (total_ones (firstn q cols)) - inject_Z (Z.of_nat q) * mode_offset (fa_mode add) 3 1)%Q).
    { intros q Hq. unfold cols.
      fold (tab (length h) (fun t => [nth t ng 0; 1 - nth t p 0; nth t fh 0])). rewrite firstn_tab by exact Hq. unfold tab.
      rewrite total_three by (assumption || (unfold ng, p, fh; rewrite Lo; exact Hq)).
      change (mode_offset (fa_mode add) 3 1)%Q with ((inject_Z 3 - 1) / 2)%Q.
      assert (M : ((inject_Z 3 - 1) / 2 == 1)%Q) by reflexivity. rewrite M, Qmult_1_r.
      unfold Qminus. rewrite <- inject_Z_opp, <- inject_Z_plus. apply inject_Z_eq. lia. }
    pose proof (fsuadd_climbs add 3 1%Q cols eq_refl eq_refl) as F. cbn zeta in F. rewrite Lc, <- H4 in F.
    rewrite F.
    + split; apply climbs_ext; intros q Hq; [symmetry|]; apply El; lia.
    + lra.
    + apply Forall_forall. intros col Hc. apply in_map_iff in Hc. destruct Hc as (t & <- & _).
      pose proof (bits_nth ng t B4) as X1. pose proof (bits_nth p t B5) as X2. pose proof (bits_nth fh t B3) as X3.
      unfold bits. apply Forall_cons; [exact X1|]. apply Forall_cons; [destruct X2 as [-> | ->]; [right|left]; reflexivity|].
      apply Forall_cons; [exact X3|apply Forall_nil].
    + apply Forall_forall. intros col Hc. apply in_map_iff in Hc. destruct Hc as (t & <- & _). reflexivity.
    + apply (unclamped_ext _ _ _ _ _ _ _ El (fun _ _ => eq_refl) Hu).
Qed.

(** ** Construction *)
Definition mgu_args_ok (I H : nat) (bias : bool) (wf wn : list (list Q)) (bf bn : option (list Q)) : Prop :=
  shape2 H (H + I) wf = true /\ shape2 H (H + I) wn = true /\
  (bias = true -> exists f n, bf = Some f /\ bn = Some n /\ length f = H /\ length n = H).

Lemma mode_bipolar mn : lower mn = "bipolar"%string -> mode_parse mn = Ok Bipolar.
Proof. intros H. unfold mode_parse. rewrite H. reflexivity. Qed.

Lemma flin_new_bipolar ext n H bias w b width mn rn dimr depth k :
  lower mn = "bipolar"%string -> rng_parse rn = Ok k -> is_tc k = false -> shape2 H n w = true ->
  (bias = true -> exists f, b = Some f /\ length f = H) ->
  exists c, flin_new ext n H bias (Some w) b [] width mn rn dimr (Some 1%Q) depth = Ok (c, flin_acc_cfg c (Some 1%Q) depth) /\
    pc_shape c /\ pc_in c = n /\ pc_out c = H /\ pc_mode c = Bipolar /\ pc_wtc c = false.
Proof.
  intros Hm Hk Ht Hw Hb.
  assert (A : pc_args_ok n H bias (Some w) b []).
  { split; [exact Hw|]. destruct b as [b|]; [|exact Logic.I]. intros E. destruct (Hb E) as (f & Ef & Lf). injection Ef as ->. exact Lf. }
  pose proof (flin_new_outcome ext n H bias (Some w) b [] width mn rn dimr (Some 1%Q) depth Bipolar k (mode_bipolar mn Hm) Hk A (or_intror (or_intror Ht))) as O.
  destruct (flin_new ext n H bias (Some w) b [] width mn rn dimr (Some 1%Q) depth) as [[c a]|e].
  - destruct O as (_ & O1 & O2 & O3 & O4 & O5 & _ & ->). exists c. rewrite Ht in O3. repeat (split; [assumption || reflexivity|]). exact O3.
  - destruct O as (_ & E & N). destruct (Hb E) as (f & Ef & _). rewrite N in Ef. discriminate.
Qed.

Theorem mgu_new_ok : forall ext I H bias wf bf wn bn hx width mn depth dmul rn dimr k,
  lower mn = "bipolar"%string -> rng_parse rn = Ok k -> is_tc k = false -> mgu_args_ok I H bias wf wn bf bn ->
  exists c, mgu_new ext I H bias (Some wf) bf (Some wn) bn (Some hx) width mn depth dmul rn dimr = Ok c /\
    mgu_shape c /\ mg_in c = I /\ mg_hid c = H /\ mg_depth c = depth /\ mg_wmul c = dmul /\
    mg_hx c = map (map (bingen Bipolar width)) hx /\
    mg_hrng c = rng_seq (ext 2%nat) k width dimr /\ mg_nrng c = rng_seq (ext 3%nat) k dmul dimr /\
    flin_new (ext 0%nat) (H + I) H bias (Some wf) bf [] width mn rn dimr (Some 1%Q) depth = Ok (mg_f c) /\
    flin_new (ext 1%nat) (H + I) H bias (Some wn) bn [] width mn rn dimr (Some 1%Q) depth = Ok (mg_n c).
Proof.
  intros ext I H bias wf bf wn bn hx width mn depth dmul rn dimr k Hm Hk Ht (Wf & Wn & Hb).
  assert (Hf : bias = true -> exists f, bf = Some f /\ length f = H) by (intros E; destruct (Hb E) as (f & n & ? & ? & ? & ?); eauto).
  assert (Hn : bias = true -> exists f, bn = Some f /\ length f = H) by (intros E; destruct (Hb E) as (f & n & ? & ? & ? & ?); eauto).
  destruct (flin_new_bipolar (ext 0%nat) (H + I) H bias wf bf width mn rn dimr depth k Hm Hk Ht Wf Hf) as (cf & Ef & F1 & F2 & F3 & _).
  destruct (flin_new_bipolar (ext 1%nat) (H + I) H bias wn bn width mn rn dimr depth k Hm Hk Ht Wn Hn) as (cn & En & N1 & N2 & N3 & _).
  unfold mgu_new. rewrite Hm. cbn [String.eqb Ascii.eqb Bool.eqb negb]. unfold mgu_check_w. rewrite Wf, Wn. cbn [bind].
  assert (Cb : forall b, (bias = true -> exists f, b = Some f /\ length f = H) -> mgu_check_b H bias b = Ok tt).
  { intros b Hbb. unfold mgu_check_b. destruct bias; [|reflexivity]. destruct (Hbb eq_refl) as (f & -> & ->). rewrite Nat.eqb_refl. reflexivity. }
  rewrite (Cb bf Hf), (Cb bn Hn). cbn [bind]. rewrite Ef, En, Hk. cbn [bind]. eexists. split; [reflexivity|].
  split; [split; [exact F1|]; split; [exact F2|]; split; [exact F3|]; split; [exact N1|]; split; [exact N2|exact N3]|].
  repeat (split; [reflexivity|]). reflexivity.
Qed.

Theorem mgu_new_accepts : forall ext I H bias wf bf wn bn hx width mn depth dmul rn dimr c,
  mgu_new ext I H bias wf bf wn bn hx width mn depth dmul rn dimr = Ok c ->
  lower mn = "bipolar"%string /\
  (exists f n x, wf = Some f /\ wn = Some n /\ hx = Some x /\ mgu_args_ok I H bias f n bf bn) /\
  exists k, rng_parse rn = Ok k /\ (is_tc k = true -> Z.of_nat (H + I) + b2z bias = 1).
Proof.
  intros ext I H bias wf bf wn bn hx width mn depth dmul rn dimr c. unfold mgu_new.
  destruct (String.eqb_spec (lower mn) "bipolar"%string) as [Hm|]; [|discriminate]. cbn [negb].
  unfold mgu_check_w. destruct wf as [f|]; [|discriminate]. destruct (shape2 H (H + I) f) eqn:Wf; [|discriminate]. cbn [bind].
  destruct wn as [n|]; [|discriminate]. destruct (shape2 H (H + I) n) eqn:Wn; [|discriminate]. cbn [bind].
  destruct (mgu_check_b H bias bf) eqn:Bf; [|discriminate]. destruct (mgu_check_b H bias bn) eqn:Bn; [|discriminate]. cbn [bind].
  destruct (flin_new _ _ _ _ (Some f) _ _ _ _ _ _ _ _) as [[cf af]|] eqn:Ef; [|discriminate]. cbn [bind].
  destruct (flin_new _ _ _ _ (Some n) _ _ _ _ _ _ _ _) as [cn|] eqn:En; [|discriminate]. cbn [bind].
  destruct (rng_parse rn) as [k|] eqn:Hk; [|discriminate]. cbn [bind]. destruct hx as [x|]; [|discriminate]. intros _.
  split; [exact Hm|]. split.
  - exists f, n, x. repeat (split; [reflexivity|]). split; [exact Wf|]. split; [exact Wn|]. intros ->.
    unfold mgu_check_b in Bf, Bn. destruct bf as [vf|]; [|discriminate]. destruct bn as [vn|]; [|discriminate].
    destruct (Nat.eqb_spec (length vf) H); [|discriminate]. destruct (Nat.eqb_spec (length vn) H); [|discriminate]. eauto 8.
  - exists k. split; [reflexivity|]. intros Ht. unfold flin_new in Ef. rewrite Hm, Hk, Ht in Ef. cbn [String.eqb Ascii.eqb Bool.eqb andb] in Ef.
    rewrite andb_true_r in Ef. destruct (Qeq_bool 1 (inject_Z (Z.of_nat (H + I) + b2z bias))) eqn:Q; [|discriminate Ef].
    apply Qeq_bool_iff in Q. change 1%Q with (inject_Z 1) in Q. symmetry. exact (proj1 (inject_Z_injective _ _) Q).
Qed.

(** ** Calls that raise *)
Theorem mgu_bad_call : forall c s input hx,
  (exists r, In r input /\ length r <> mg_in c) \/ length input <> length hx \/ (exists r, In r hx /\ length r <> mg_hid c) ->
  mgu_step c s (input, hx) = Err RuntimeError.
Proof.
  intros c s input hx H. unfold mgu_step.
  assert (F : forall n (l : list (list Z)), forallb (fun r => (length r =? n)%nat) l = true -> forall r, In r l -> length r = n).
  { intros n l E r Hr. rewrite forallb_forall in E. apply Nat.eqb_eq, E, Hr. }
  destruct (forallb (fun r => (length r =? mg_in c)%nat) input) eqn:E1; [|reflexivity].
  destruct (Nat.eqb_spec (length input) (length hx)) as [E2|]; [|reflexivity].
  destruct (forallb (fun r => (length r =? mg_hid c)%nat) hx) eqn:E3; [|reflexivity]. cbn [negb].
  exfalso. destruct H as [(r & Hr & N)|[N|(r & Hr & N)]].
  - apply N, (F _ _ E1 r Hr).
  - contradiction.
  - apply N, (F _ _ E3 r Hr).
Qed.

Theorem mgu_rebatch : forall c B B' h p, mgu_shape c -> (1 <= B)%nat -> hx_shape c B -> h <> [] -> Forall (call_ok B c) h ->
  call_ok B' c p -> B' <> B -> run_r (mgu_step c) (mgu_init c) (h ++ [p]) = Err RuntimeError.
Proof.
  intros c B B' h [input hx] Hs HB Hx Hne Hh [Hi Hhx] HBB. cbn [fst snd] in Hi, Hhx.
  destruct (mgu_runs c B (hx_at c) h Hs HB (hx_rows_ok c B Hx) Hh) as (s & os & E & I). rewrite run_r_snoc, E.
  destruct (iv_some _ _ _ _ _ _ I Hne) as (m & Em & Lm).
  assert (St : mgu_step c s (input, hx) = Err RuntimeError); [|rewrite St; reflexivity].
  unfold mgu_step. rewrite (batch_forallb _ _ _ Hi), (batch_forallb _ _ _ Hhx), (proj1 Hi), (proj1 Hhx), Nat.eqb_refl. cbn [negb].
  unfold state_rows at 1. rewrite Em, Lm. destruct (Nat.eqb_spec B B'); [exfalso; apply HBB; symmetry; assumption|]. reflexivity.
Qed.

Theorem mgu_buffer_mismatch : forall c B p, mgu_shape c -> (1 <= B)%nat -> call_ok B c p ->
  length (mg_hx c) <> B -> length (mg_hx c) <> 1%nat -> mgu_step c (mgu_init c) p = Err RuntimeError.
Proof.
  intros c B [input hx] (F1 & F2 & F3 & _) HB [Hi Hhx] N1 N2. cbn [fst snd] in Hi, Hhx. unfold mgu_step.
  rewrite (batch_forallb _ _ _ Hi), (batch_forallb _ _ _ Hhx), (proj1 Hi), (proj1 Hhx), Nat.eqb_refl. cbn [negb mgu_init ms_gate ms_out state_rows bind ms_f].
  assert (Hc : batch_ok B (pc_in (fst (mg_f c))) (cat1 hx input)) by (rewrite F2; apply cat1_ok; assumption).
  destruct (flin_next (fst (mg_f c)) (snd (mg_f c)) B [] _ (flin_init (fst (mg_f c))) [] F1 HB (Forall_nil _) Hc eq_refl) as (f' & o & Ef & _).
  rewrite Ef. cbn [bind].
  assert (Eb : hx_rows c B = Err RuntimeError); [|rewrite Eb; reflexivity].
  unfold hx_rows, bcast at 1. destruct (Nat.eqb_spec (length (mg_hx c)) B) as [|_]; [contradiction|].
  destruct (mg_hx c) as [|r [|r2 l]]; [reflexivity|exfalso; apply N2; reflexivity|reflexivity].
Qed.

(** ** HUBMGUCell *)
Lemma hub_bits_ok B n w rng src cy : qshape B n src -> batch_ok B n (hub_bits w rng src cy).
Proof.
  intros [L F]. unfold hub_bits. split; [rewrite map_length; exact L|]. apply Forall_map. eapply Forall_impl; [|exact F].
  intros r Hr. split; [rewrite map_length; exact Hr|]. unfold bits. apply Forall_map. apply Forall_forall. intros v _. apply bsgen_bit_bit.
Qed.

Lemma hub_bits_entry B n w rng src cy b i : qshape B n src -> (b < B)%nat -> (i < n)%nat ->
  entry2 (hub_bits w rng src cy) b i = bsgen_bit (bingen Bipolar w (qentry src b i)) rng cy.
Proof.
  intros [L F] Hb Hi. unfold hub_bits, entry2, qentry.
  assert (Lr : length (nth b src []) = n) by (rewrite Forall_forall in F; apply F, nth_In; lia).
  assert (E : nth b (map (map (fun v => bsgen_bit (bingen Bipolar w v) rng cy)) src) [] =
              map (fun v => bsgen_bit (bingen Bipolar w v) rng cy) (nth b src [])) by exact (map_nth _ src [] b).
  rewrite E. rewrite (nth_indep _ 0 (bsgen_bit (bingen Bipolar w 0%Q) rng cy)) by (rewrite map_length; lia).
  exact (map_nth (fun v => bsgen_bit (bingen Bipolar w v) rng cy) (nth b src []) 0%Q i).
Qed.

Lemma hub_lane B n w rng src b i : qshape B n src -> (b < B)%nat -> (i < n)%nat ->
  lane (map (hub_bits w rng src) (zrange (2 ^ w))) b i = bsgen_stream (bingen Bipolar w (qentry src b i)) rng 0 (2 ^ w).
Proof.
  intros Hs Hb Hi. unfold lane, zrange, bsgen_stream. rewrite !map_map. apply map_ext. intros k. rewrite (hub_bits_entry B n) by assumption. reflexivity.
Qed.

Lemma value_grid w xs : bits xs -> length xs = (2 ^ w)%nat ->
  (value Bipolar xs == (inject_Z (2 * ones xs - p2 w)) / inject_Z (p2 w))%Q.
Proof.
  intros Hb L. unfold value. assert (Z1 : zlen xs = p2 w) by (unfold zlen; rewrite L; apply p2_nat).
  rewrite Z1. replace (walk xs) with (2 * ones xs - p2 w); [reflexivity|].
  rewrite <- Z1, <- (ones_zeros xs Hb). unfold walk. lia.
Qed.

Theorem hubmgu_value : forall ext I H bias wf bf wn bn width mn depth dmul rn dimr k input hx,
  lower mn = "bipolar"%string -> rng_parse rn = Ok k -> is_tc k = false -> mgu_args_ok I H bias wf wn bf bn ->
  (1 <= length input)%nat -> qshape (length input) I input ->
  match hx with None => True | Some h => qshape (length input) H h end ->
  let B := length input in
  let h0 b j := match hx with None => 0%Q | Some h => qentry h b j end in
  exists c h os y,
    (exists hb, qshape B H hb /\ (forall b j, (b < B)%nat -> (j < H)%nat -> qentry hb b j = h0 b j) /\
       mgu_new ext I H bias (Some wf) bf (Some wn) bn (Some hb) width mn depth dmul rn dimr = Ok c) /\
    length h = (2 ^ width)%nat /\ Forall (call_ok B c) h /\
    (forall b i, (b < B)%nat -> (i < I)%nat ->
       lane (map fst h) b i = bsgen_stream (bingen Bipolar width (qentry input b i)) (rng_seq (ext 4%nat) k width dimr) 0 (2 ^ width)) /\
    (forall b j, (b < B)%nat -> (j < H)%nat ->
       lane (map snd h) b j = bsgen_stream (bingen Bipolar width (h0 b j)) (rng_seq (ext 5%nat) k width dimr) 0 (2 ^ width)) /\
    outputs (run_r (mgu_step c) (mgu_init c) h) = Some os /\
    hubmgu ext I H bias (Some wf) bf (Some wn) bn width mn depth dmul rn dimr input hx = Ok y /\ qshape B H y /\
    forall b j, (b < B)%nat -> (j < H)%nat ->
      (qentry y b j == value Bipolar (lane (map mo_hy os) b j))%Q /\
      (qentry y b j == inject_Z (2 * ones (lane (map mo_hy os) b j) - p2 width) / inject_Z (p2 width))%Q /\
      (-1 <= qentry y b j /\ qentry y b j <= 1)%Q.
Proof.
  intros ext I H bias wf bf wn bn width mn depth dmul rn dimr k input hx Hm Hk Ht Ha HB Hi Hhx B h0.
  set (hb := match hx with None => repeat (repeat 0%Q H) (length input) | Some h => h end).
  assert (Qh : qshape B H hb).
  { unfold hb. destruct hx as [h|]; [exact Hhx|]. split; [apply repeat_length|]. apply Forall_forall. intros r Hr. apply repeat_spec in Hr. subst. apply repeat_length. }
  assert (Eh : forall b j, (b < B)%nat -> (j < H)%nat -> qentry hb b j = h0 b j).
  { intros b j Hb Hj. unfold hb, h0. destruct hx as [h|]; [reflexivity|]. unfold qentry.
    assert (E1 : nth b (repeat (repeat 0%Q H) (length input)) [] = repeat 0%Q H).
    { apply (repeat_spec (length input)). apply nth_In. rewrite repeat_length. exact Hb. }
    rewrite E1. apply (repeat_spec H). apply nth_In. rewrite repeat_length. exact Hj. }
  destruct (mgu_new_ok ext I H bias wf bf wn bn hb width mn depth dmul rn dimr k Hm Hk Ht Ha)
    as (c & Ec & Sc & C1 & C2 & C3 & C4 & C5 & _).
  set (irng := rng_seq (ext 4%nat) k width dimr). set (hrng := rng_seq (ext 5%nat) k width dimr).
  set (h := hub_calls width irng hrng input hb).
  assert (Lh : length h = (2 ^ width)%nat) by (unfold h, hub_calls, zrange; rewrite !map_length, seq_length; reflexivity).
  assert (Hh : Forall (call_ok B c) h).
  { unfold h, hub_calls. apply Forall_map. apply Forall_forall. intros cy _. unfold call_ok. rewrite C1, C2. cbn [fst snd].
    split; apply hub_bits_ok; assumption. }
  assert (Hbuf : hx_shape c B).
  { left. rewrite C2, C5. split; [rewrite map_length; apply Qh|]. apply Forall_map. eapply Forall_impl; [|apply Qh]. intros r Hr. rewrite map_length. exact Hr. }
  destruct (mgu_cell c B h Sc HB Hbuf Hh) as (os & Eo & Lo & Bo & _).
  exists c, h, os, (hub_value (length input) H (map mo_hy os)).
  split; [exists hb; split; [exact Qh|]; split; [exact Eh|exact Ec]|]. split; [exact Lh|]. split; [exact Hh|].
  split; [|split; [|split; [exact Eo|split; [|split]]]].
  - intros b i Hb Hi'. rewrite <- (hub_lane B I) by assumption. unfold h, hub_calls. rewrite map_map. reflexivity.
  - intros b j Hb Hj. rewrite <- (Eh b j Hb Hj), <- (hub_lane B H) by assumption. unfold h, hub_calls. rewrite map_map. reflexivity.
  - unfold hubmgu. fold hb. rewrite Ec. cbn [bind]. rewrite Hk. cbn [bind]. fold irng hrng. fold h.
    destruct (run_r (mgu_step c) (mgu_init c) h) as [[s os']|e]; [|discriminate Eo]. cbn [outputs] in Eo. injection Eo as ->. reflexivity.
  - split; [unfold hub_value; rewrite map_length, seq_length; reflexivity|]. unfold hub_value. apply Forall_map, Forall_forall.
    intros b _. rewrite map_length, seq_length. reflexivity.
  - intros b j Hb Hj.
    assert (Hl : bits (lane (map mo_hy os) b j)).
    { apply (lane_bits B (mg_hid c)); [|exact Hb|lia]. apply Forall_map. eapply Forall_impl; [|exact Bo]. cbv beta. tauto. }
    assert (Ll : length (lane (map mo_hy os) b j) = (2 ^ width)%nat) by (rewrite lane_length, map_length, Lo; exact Lh).
    assert (Hne : lane (map mo_hy os) b j <> []).
    { intros E. rewrite E in Ll. cbn [length] in Ll. pose proof (Nat.pow_nonzero 2 width). lia. }
    destruct (pe_forward_spec Bipolar 1 0 _ Hl Hne) as (pp & pe & E & E1 & _).
    assert (Ey : qentry (hub_value (length input) H (map mo_hy os)) b j = pp).
    { unfold hub_value, qentry. set (F := fun b0 j0 : nat => match pe_forward Bipolar 1 0 (pe_monitors pe_init (map (fun y : list (list Z) => nth j0 (nth b0 y []) 0) (map mo_hy os))) with Some (pp0, _) => pp0 | None => 0%Q end).
      change (nth j (nth b (tab (length input) (fun b0 => tab H (F b0))) []) 0%Q = pp).
      rewrite (tab_nth _ _ b) by exact Hb. rewrite (tab_nth _ _ j) by exact Hj. unfold F.
      change (map (fun y => nth j (nth b y []) 0) (map mo_hy os)) with (lane (map mo_hy os) b j). rewrite E. reflexivity. }
    rewrite Ey. split; [exact E1|]. split; [rewrite E1; apply value_grid; assumption|].
    pose proof (value_range Bipolar _ Hl Hne) as R. cbn [src_ok] in R. rewrite E1. exact R.
Qed.
