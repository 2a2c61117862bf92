(** Proofs about ShiftReg, CORDIV_kernel, FSUDiv and FSUSqrt on tensors. *)
Require Import Verif.BaseLemmas Verif.TDivModel Verif.TensorSpec Verif.TDivSpec Verif.AddProof Verif.DivProof Verif.TensorProof.
Open Scope Z_scope.

(** ** Simulation *)
Section Sim.
  Context {TX TY X Y TS St : Type}.
  Variables (s : shape) (xok : TX -> Prop) (xat : TX -> index -> X) (yok : TY -> Prop) (yat : TY -> index -> Y).
  Variables (T : TS -> TX -> result (TS * TY)) (f : St -> X -> result (St * Y)) (Inv : TS -> Prop) (sat : TS -> index -> St).
  Definition sim_step : Prop := forall st x, Inv st -> xok x ->
    match T st x with
    | Ok (st', y) => Inv st' /\ yok y /\ forall i, valid s i -> f (sat st i) (xat x i) = Ok (sat st' i, yat y i)
    | Err e => forall i, valid s i -> f (sat st i) (xat x i) = Err e
    end.
  Hypothesis Hstep : sim_step.
  Lemma sim_run xs : Forall xok xs -> forall st, Inv st ->
    match run_r T st xs with
    | Ok (st', ys) => Inv st' /\ length ys = length xs /\ Forall yok ys /\
        forall i, valid s i -> run_r f (sat st i) (map (fun x => xat x i) xs) = Ok (sat st' i, map (fun y => yat y i) ys)
    | Err e => forall i, valid s i -> run_r f (sat st i) (map (fun x => xat x i) xs) = Err e
    end.
  Proof.
    induction 1 as [|x xs Hx Hxs IH]; intros st Hi; cbn [run_r map].
    - split; [exact Hi|]. split; [reflexivity|]. split; [constructor|]. reflexivity.
    - pose proof (Hstep st x Hi Hx) as H. destruct (T st x) as [[st1 y]|e].
      2:{ intros i Hv. rewrite (H i Hv). reflexivity. }
      destruct H as (Hi1 & Hy & Hf). specialize (IH st1 Hi1). destruct (run_r T st1 xs) as [[st2 ys]|e].
      + destruct IH as (Hi2 & Hl & Hys & Hr). split; [exact Hi2|]. split; [cbn; lia|]. split; [constructor; assumption|].
        intros i Hv. rewrite (Hf i Hv), (Hr i Hv). reflexivity.
      + intros i Hv. rewrite (Hf i Hv), (IH i Hv). reflexivity.
  Qed.
  Lemma sim_lanes st0 s0 xs : Inv st0 -> (forall i, valid s i -> sat st0 i = s0) -> Forall xok xs -> same_lanes xat yok yat s T st0 f s0 xs.
  Proof.
    intros Hi H0 Hx. pose proof (sim_run xs Hx st0 Hi) as H. unfold same_lanes. destruct (run_r T st0 xs) as [[st' ys]|e].
    - destruct H as (_ & Hl & Hy & Hr). split; [exact Hl|]. split; [exact Hy|]. intros i Hv. exists (sat st' i). rewrite <- (H0 i Hv). exact (Hr i Hv).
    - intros i Hv. rewrite <- (H0 i Hv). exact (H i Hv).
  Qed.
End Sim.

(** ** Shapes and indices with one more leading dimension *)
Lemma valid_snoc s n : forall i j, valid s i -> (j < n)%nat -> valid (s ++ [n]) (i ++ [j]).
Proof. induction s as [|d s IH]; intros [|a i] j Hv Hj; cbn in *; try contradiction; [auto|]. destruct Hv. auto. Qed.
Lemma bto_app s r : bto s (s ++ r).
Proof. induction s; cbn; auto. Qed.
Lemma bidx_app s : forall i j, valid s i -> bidx s (i ++ j) = i.
Proof.
  induction s as [|d s IH]; intros [|a i] j Hv; cbn in *; try contradiction; [reflexivity|]. destruct Hv as [H1 H2].
  rewrite IH by exact H2. destruct (Nat.eqb_spec d 1); [|reflexivity]. replace a with 0%nat by lia. reflexivity.
Qed.
Lemma numel_app1 s n : numel (s ++ repeat 1%nat n) = numel s.
Proof. induction s as [|d s IH]; [induction n; cbn in *; lia|]. cbn. rewrite IH. reflexivity. Qed.
Lemma unravel_ravel s n : forall i, valid s i -> unravel (s ++ repeat 1%nat n) (ravel s i) = i ++ repeat 0%nat n.
Proof.
  induction s as [|d s IH]; intros [|a i] Hv; cbn [valid app] in *; try contradiction.
  - cbn [ravel]. induction n as [|n IHn]; [reflexivity|]. cbn [repeat unravel]. rewrite Nat.mod_1_r, Nat.div_1_r, IHn. reflexivity.
  - destruct Hv as [H1 H2]. cbn [ravel unravel]. rewrite (Nat.mul_comm d), Nat.mod_add, Nat.mod_small, Nat.div_add, Nat.div_small by lia.
    rewrite Nat.add_0_l, IH by exact H2. reflexivity.
Qed.
Lemma strip1_bto s : bto (strip1 s) s.
Proof.
  induction s as [|d s IH]; [exact Logic.I|]. cbn [strip1]. destruct (strip1 s) as [|q r]; [|cbn [bto]; auto].
  destruct (Nat.eqb_spec d 1); cbn; auto.
Qed.
Lemma strip1_idx s : forall i, valid s i -> bidx (strip1 s) i ++ repeat 0%nat (length s - length (strip1 s)) = i.
Proof.
  induction s as [|d s IH]; intros [|a i] Hv; cbn [valid] in *; try contradiction; [reflexivity|]. destruct Hv as [H1 H2].
  specialize (IH i H2). cbn [strip1]. destruct (strip1 s) as [|q r].
  - cbn [bidx length app] in IH. rewrite Nat.sub_0_r in IH. destruct (Nat.eqb_spec d 1).
    + cbn [bidx length app]. rewrite Nat.sub_0_r. cbn [repeat]. rewrite IH. f_equal. lia.
    + cbn [bidx length]. destruct (Nat.eqb_spec d 1); [lia|]. cbn [app]. f_equal. replace (S (length s) - 1)%nat with (length s) by lia. exact IH.
  - cbn [length Nat.sub]. cbn [length] in IH. change (bidx (d :: q :: r) (a :: i)) with ((if (d =? 1)%nat then 0%nat else a) :: bidx (q :: r) i).
    cbn [app]. f_equal; [destruct (Nat.eqb_spec d 1); lia|]. exact IH.
Qed.

(** ** ShiftReg *)
Definition lane (entry : nat) (sr : tensor Z) (i : index) : list Z := map (fun j => elt sr (i ++ [j])) (seq 0 entry).
Definition streg_inv (entry : nat) (s : shape) (st : streg) : Prop :=
  st = streg_init entry \/ sr_first st = false /\ shp (sr_reg st) = s ++ [entry].
Definition streg_at (entry : nat) (st : streg) (i : index) : list Z :=
  if sr_first st then shiftreg_init entry else lane entry (sr_reg st) i.

Lemma lane_init entry s i : lane entry (mkT s (fun i => Z.of_nat (last i 0%nat) mod 2)) i = shiftreg_init entry.
Proof.
  unfold lane, shiftreg_init, zrange. rewrite map_map. apply map_ext. intros j. cbn [elt]. rewrite last_last. reflexivity.
Qed.
Lemma lane_length entry sr i : length (lane entry sr i) = entry.
Proof. unfold lane. rewrite map_length, seq_length. reflexivity. Qed.
Lemma lane_nth entry sr i k : (k < entry)%nat -> nth k (lane entry sr i) 0 = elt sr (i ++ [k]).
Proof.
  intros H. unfold lane. rewrite (nth_indep _ 0 (elt sr (i ++ [0%nat]))) by (rewrite map_length, seq_length; exact H).
  change (elt sr (i ++ [0%nat])) with ((fun j => elt sr (i ++ [j])) 0%nat). rewrite map_nth, seq_nth by exact H. reflexivity.
Qed.
Lemma dim0_snoc s n {A} (e : index -> A) : dim0 (mkT (s ++ [n]) e) = n.
Proof. unfold dim0. cbn [shp]. apply last_last. Qed.

(** The shifted register with the input written into its last slice. *)
Lemma shift_lane entry s sr x : (0 < entry)%nat -> shp sr = s ++ [entry] -> shp x = s ->
  exists r, tset (entry - 1) x (troll sr) = Ok r /\ shp r = s ++ [entry] /\
  forall i, valid s i -> lane entry r i = set_last (roll_m1 (lane entry sr i)) (elt x i).
Proof.
  intros He Hs Hx. unfold tset, dim0, troll. cbn [shp elt]. rewrite Hs, last_last.
  destruct (Nat.ltb_spec (entry - 1) entry); [|lia]. cbv zeta. rewrite removelast_last, Hx.
  rewrite (bto_bshape _ _ (strip1_bto s)), shape_eqb_refl. eexists. split; [reflexivity|]. split; [reflexivity|].
  intros i Hi. destruct entry as [|n]; [lia|]. replace (S n - 1)%nat with n by lia.
  unfold dim0. rewrite Hs, last_last.
  assert (E : lane (S n) sr i = elt sr (i ++ [0%nat]) :: map (fun j => elt sr (i ++ [j])) (seq 1 n)) by reflexivity.
  rewrite E, set_last_roll. unfold lane. cbn [elt]. rewrite seq_S, map_app. cbn [map Nat.add]. f_equal.
  - rewrite <- seq_shift, map_map. apply map_ext_in. intros j Hj. apply in_seq in Hj. rewrite last_last, removelast_last.
    destruct (Nat.eqb_spec j n); [lia|]. rewrite Nat.mod_small by lia. do 3 f_equal. lia.
  - rewrite last_last, Nat.eqb_refl, removelast_last. f_equal. rewrite strip1_idx by exact Hi. reflexivity.
Qed.

Lemma map2_map2 {A B C} (f : B -> C -> Z) (g : A -> B) (h : A -> C) l : map2 f (map g l) (map h l) = map (fun a => f (g a) (h a)) l.
Proof. induction l as [|a l IH]; [reflexivity|]. cbn [map map2]. rewrite IH. reflexivity. Qed.

Lemma streg_step entry s st x mask k : (k < entry)%nat -> streg_inv entry s st -> shp x = s ->
  match mask with None => True | Some m => shp m = s end ->
  exists st' o c, streg_t entry st x mask k = Ok (st', (o, c)) /\ (sr_first st' = false /\ shp (sr_reg st') = s ++ [entry]) /\ shp o = s /\ shp c = s /\
  forall i, valid s i -> (streg_at entry st' i, (elt o i, elt c i)) = shiftreg_step (streg_at entry st i) (elt x i, option_map (fun m => elt m i) mask, Z.of_nat k).
Proof.
  intros Hk Hi Hx Hm. unfold streg_t. cbv zeta.
  set (sr := if sr_first st then mkT (shp x ++ [entry]) (fun i => Z.of_nat (last i 0%nat) mod 2) else sr_reg st).
  assert (Ss : shp sr = s ++ [entry]).
  { unfold sr. destruct Hi as [->|[-> Hs]]; [cbn [sr_first streg_init shp]; rewrite Hx; reflexivity|exact Hs]. }
  assert (Hat : forall i, streg_at entry st i = lane entry sr i).
  { intros i. unfold sr, streg_at. destruct (sr_first st); [rewrite lane_init; reflexivity|reflexivity]. }
  clearbody sr.
  assert (Hsl : tslice k sr = Ok (mkT s (fun i => elt sr (i ++ [k])))).
  { unfold tslice, dim0. rewrite Ss, last_last, removelast_last. destruct (Nat.ltb_spec k entry); [reflexivity|lia]. }
  rewrite Hsl. cbn [bind].
  set (cnt := tsum (length (shp sr) - 1) sr).
  assert (Sc : shp cnt = s /\ forall i, valid s i -> elt cnt i = zsum (lane entry sr i)).
  { unfold cnt, tsum. cbn [shp elt]. rewrite Ss, app_length. cbn [length]. replace (length s + 1 - 1)%nat with (length s) by lia. split.
    - unfold remove_at. rewrite firstn_app, Nat.sub_diag, firstn_all, skipn_all2 by (rewrite app_length; cbn; lia).
      cbn [firstn]. rewrite !app_nil_r. reflexivity.
    - intros i Hv. rewrite app_nth2, Nat.sub_diag by lia. cbn [nth]. unfold lane. f_equal. apply map_ext. intros j.
      apply valid_length in Hv. unfold insert_at. rewrite <- Hv, firstn_all, skipn_all. reflexivity. }
  destruct Sc as [Sc Ec]. clearbody cnt.
  destruct (shift_lane entry s sr x) as (sh & Esh & Ssh & Lsh); [lia|exact Ss|exact Hx|].
  destruct mask as [m|].
  - rewrite Hm, Hx, shape_eqb_refl, Esh. cbn [bind].
    destruct (tmap2_r Z.mul m sh) as (a & -> & Sa & Ea); [rewrite Hm, Ssh; apply bto_app|]. cbn [bind].
    destruct (tmap2_r Z.mul (tmap (fun x => 1 - x) m) sr) as (b & -> & Sb & Eb); [cbn [shp tmap]; rewrite Hm, Ss; apply bto_app|]. cbn [bind].
    destruct (tmap2_l Z.add a b) as (c & -> & _ & Sc' & Ec'); [rewrite Sa, Sb, Ssh, Ss; apply bto_refl|]. cbn [bind].
    do 3 eexists. split; [reflexivity|]. cbn [sr_first sr_reg shp]. split; [split; [reflexivity|congruence]|]. split; [reflexivity|]. split; [exact Sc|].
    intros i Hv. rewrite Hat. unfold shiftreg_step. cbn [option_map elt]. unfold nthZ. rewrite Nat2Z.id, lane_nth by exact Hk. rewrite (Ec i Hv). f_equal.
    unfold streg_at. cbn [sr_first sr_reg]. rewrite <- (Lsh i Hv). unfold lane. rewrite map2_map2.
    apply map_ext_in. intros j Hj. apply in_seq in Hj. pose proof (valid_snoc s entry i j Hv ltac:(lia)) as Hvj.
    rewrite Ec' by (rewrite Sa, Ssh; exact Hvj). rewrite Sb, Ss, (bidx_id (s ++ [entry])) by exact Hvj.
    rewrite Ea by (rewrite Ssh; exact Hvj). rewrite Eb by (rewrite Ss; exact Hvj). cbn [shp tmap elt].
    rewrite Hm, bidx_app by exact Hv. reflexivity.
  - rewrite Esh. cbn [bind]. do 3 eexists. split; [reflexivity|]. cbn [sr_first sr_reg shp]. split; [split; [reflexivity|exact Ssh]|].
    split; [reflexivity|]. split; [exact Sc|].
    intros i Hv. rewrite Hat. unfold shiftreg_step. cbn [option_map elt]. unfold nthZ. rewrite Nat2Z.id, lane_nth by exact Hk. rewrite (Ec i Hv). f_equal.
    unfold streg_at. cbn [sr_first sr_reg]. apply Lsh, Hv.
Qed.

Definition streg_run (entry : nat) (st : streg) (x : tensor Z * option (tensor Z) * nat) : result (streg * (tensor Z * tensor Z)) :=
  let '(input, mask, index) := x in streg_t entry st input mask index.
Lemma streg_lanes entry s xs : Forall (sr_call entry s) xs ->
  same_lanes sr_at (both s) elt2 s (streg_run entry) (streg_init entry) (total shiftreg_step) (shiftreg_init entry) xs.
Proof.
  intros Hx. apply (sim_lanes s (sr_call entry s) sr_at (both s) elt2 _ _ (streg_inv entry s) (streg_at entry)).
  - intros st [[x m] k] Hi (H1 & H2 & H3). cbn [streg_run]. destruct (streg_step entry s st x m k H3 Hi H1 H2) as (st' & o & c & -> & Hi' & So & Sc & E).
    split; [right; exact Hi'|]. split; [split; assumption|]. intros i Hv. unfold total. cbn [sr_at]. rewrite <- (E i Hv). reflexivity.
  - left. reflexivity.
  - reflexivity.
  - exact Hx.
Qed.

(** ** CORDIV_kernel *)
Definition cordiv_inv (entry : nat) (s : shape) (st : cordiv_t_st) : Prop := streg_inv entry s (ct_sr st).
Definition cordiv_at (entry : nat) (st : cordiv_t_st) (i : index) : cordiv_st := {| cd_sr := streg_at entry (ct_sr st) i; cd_idx := ct_idx st |}.

Lemma nth_init entry k : (k < entry)%nat -> nth k (shiftreg_init entry) 0 = Z.of_nat k mod 2.
Proof.
  intros H. rewrite <- (lane_init entry [] []), lane_nth by exact H. cbn [elt app last]. reflexivity.
Qed.

(** The slice of the register picked by the sequence, broadcast against a tensor of shape [s]. *)
Lemma historic entry s st k : streg_inv entry s st -> (k < entry)%nat -> dim0 (sr_reg st) = entry /\ exists n,
  bto (removelast (shp (sr_reg st)) ++ [1%nat]) (s ++ repeat 1%nat n) /\ bshape s (removelast (shp (sr_reg st)) ++ [1%nat]) = Some (s ++ repeat 1%nat n) /\
  forall i, valid s i ->
    elt (sr_reg st) (removelast (bidx (removelast (shp (sr_reg st)) ++ [1%nat]) (i ++ repeat 0%nat n)) ++ [k]) = nth k (streg_at entry st i) 0.
Proof.
  intros [->|[Hf Hs]] Hk.
  - split; [reflexivity|]. cbn [streg_init sr_reg shp elt removelast app]. unfold streg_at. cbn [streg_init sr_first]. destruct s as [|d s].
    + exists 1%nat. split; [cbn; auto|]. split; [reflexivity|]. intros [|a i] Hi; [|contradiction]. cbn [app repeat bidx removelast last].
      rewrite nth_init by exact Hk. reflexivity.
    + exists 0%nat. cbn [repeat]. rewrite app_nil_r. split; [cbn; auto|]. split.
      * rewrite bshape_comm. apply bto_bshape. cbn. auto.
      * intros i Hi. rewrite last_last, nth_init by exact Hk. reflexivity.
  - unfold dim0. rewrite Hs, last_last, removelast_last. split; [reflexivity|]. exists 1%nat. cbn [repeat]. split; [apply bto_refl|].
    split; [apply bto_bshape, bto_app|]. intros i Hi. unfold streg_at. rewrite Hf, lane_nth by exact Hk.
    rewrite bidx_id by (apply valid_snoc; [exact Hi|lia]). rewrite removelast_last. reflexivity.
Qed.

Lemma valid_ones s n : forall i, valid s i -> valid (s ++ repeat 1%nat n) (i ++ repeat 0%nat n).
Proof.
  induction s as [|d s IH]; intros [|a i] H; cbn in *; try contradiction.
  - induction n; cbn; auto.
  - destruct H. auto.
Qed.

Lemma cordiv_sim entry rng s : sim_step s (both s) elt2 (fun y => shp y = s) (@elt Z) (cordiv_t entry rng) (cordiv_step entry rng) (cordiv_inv entry s) (cordiv_at entry).
Proof.
  intros st [x y] Hi [Hx Hy]. cbn [fst snd] in *. unfold cordiv_t. cbv zeta. unfold elt2. cbn [fst snd].
  set (dv := tmap (fun x => b2z (x =? 1)) y). assert (Sd : shp dv = s) by exact Hy.
  assert (Ed : forall i, elt dv i = b2z (elt y i =? 1)) by reflexivity. clearbody dv.
  unfold cordiv_step, cordiv_at. cbn [cd_idx cd_sr]. cbv zeta. unfold cordiv_inv in Hi.
  destruct (ct_idx st mod Z.of_nat entry <? zlen rng); [|intros i Hv; reflexivity].
  set (pos := nthZ rng (ct_idx st mod Z.of_nat entry)). clearbody pos.
  assert (Hd0 : dim0 (sr_reg (ct_sr st)) = entry) by (destruct Hi as [->|[_ Hs]]; [reflexivity|unfold dim0; rewrite Hs; apply last_last]).
  rewrite Hd0; destruct ((0 <=? pos) && (pos <? Z.of_nat entry)) eqn:Ep; [|intros i Hv; reflexivity].
  assert (Hk : (Z.to_nat pos < entry)%nat) by lia.
  destruct (historic entry s (ct_sr st) (Z.to_nat pos) Hi Hk) as (_ & n & Bq & Hb & Hq).
  set (hs := removelast (shp (sr_reg (ct_sr st))) ++ [1%nat]) in *.
  set (hq := mkT hs (fun i => elt (sr_reg (ct_sr st)) (removelast i ++ [Z.to_nat pos]))).
  destruct (tmap2_l Z.mul dv x) as (a & -> & _ & Sa & Ea); [rewrite Sd, Hx; apply bto_refl|]; cbn [bind].
  destruct (tmap2_ok Z.mul (tmap (fun x => 1 - x) dv) hq (s ++ repeat 1%nat n)) as (b & -> & Sb & Eb); [cbn [shp tmap hq]; rewrite Sd; exact Hb|]; cbn [bind].
  destruct (tmap2_r Z.add a b) as (ab & -> & Sab & Eab); [rewrite Sa, Sb, Sd; apply bto_app|]; cbn [bind].
  rewrite Sb in Sab; unfold tview; rewrite Hx, Sab, numel_app1, Nat.eqb_refl; cbn [bind].
  set (q := mkT s (fun i => elt ab (unravel (s ++ repeat 1%nat n) (ravel s i)))).
  assert (Eq : forall i, valid s i -> elt q i = elt dv i * elt x i + (1 - elt dv i) * nth (Z.to_nat pos) (streg_at entry (ct_sr st) i) 0).
  { intros i Hv; cbn [elt q]; rewrite unravel_ravel by exact Hv; rewrite Eab by (rewrite Sb; apply valid_ones, Hv);
       rewrite Sa, Sd, bidx_app by exact Hv; rewrite Ea by (rewrite Sd; exact Hv); rewrite Hx, bidx_id by exact Hv;
       rewrite Eb; cbn [shp tmap elt hq]; rewrite Sd, bidx_app by exact Hv; rewrite Hq by exact Hv; reflexivity. }
  assert (Sq : shp q = s) by reflexivity; clearbody q.
  destruct (streg_step entry s (ct_sr st) q (Some dv) 0) as (sr' & o & c & -> & Hi' & _ & _ & Est); [lia|exact Hi|exact Sq|exact Sd|]; cbn [bind fst].
  split; [right; exact Hi'|]; split; [exact Sq|]; intros i Hv; specialize (Est i Hv); cbn [option_map] in Est.
  rewrite (Eq i Hv) in Est; rewrite Ed in Est; unfold nthZ at 1; change (Z.of_nat 0) with 0 in Est; rewrite <- Est; cbn [ct_sr ct_idx]; rewrite (Eq i Hv), Ed; reflexivity.
Qed.
Lemma cordiv_lanes entry rng s xs : Forall (both s) xs ->
  same_lanes elt2 (fun y => shp y = s) (@elt Z) s (cordiv_t entry rng) (cordiv_t_init entry) (cordiv_step entry rng) (cordiv_init entry) xs.
Proof.
  intros Hx. apply (sim_lanes _ _ _ _ _ _ _ _ _ (cordiv_sim entry rng s)); [left; reflexivity|reflexivity|exact Hx].
Qed.
(** Whatever the state, a call that returns had operands of equal shape. *)
Lemma cordiv_shapes entry rng st x st' y : cordiv_t entry rng st x = Ok (st', y) -> shp (fst x) = shp (snd x) /\ shp y = shp (fst x).
Proof.
  destruct x as [a b]. unfold cordiv_t. cbv zeta. cbn [fst snd].
  destruct (_ <? _); [|discriminate]. destruct (_ && _); [|discriminate].
  destruct (tmap2 Z.mul _ a) as [t1|]; [|discriminate]. cbn [bind]. destruct (tmap2 Z.mul _ _) as [t2|]; [|discriminate]. cbn [bind].
  destruct (tmap2 Z.add t1 t2) as [t3|]; [|discriminate]. cbn [bind]. unfold tview. destruct (_ =? _)%nat; [|discriminate]. cbn [bind].
  unfold streg_t. cbv zeta. destruct (tslice _ _) as [t4|]; [|discriminate]. cbn [bind shp tmap]. destruct (shape_eqb (shp b) (shp a)) eqn:E; [|discriminate].
  apply shape_eqb_spec in E. destruct (tset _ _ _) as [t5|]; [|discriminate]. cbn [bind]. destruct (tmap2 Z.mul _ t5) as [t6|]; [|discriminate]. cbn [bind].
  destruct (tmap2 Z.mul _ _) as [t7|]; [|discriminate]. cbn [bind]. destruct (tmap2 Z.add t6 t7) as [t8|]; [|discriminate]. cbn [bind].
  intros [= <- <-]. split; [symmetry; exact E|reflexivity].
Qed.

(** ** FSUDiv *)
Definition acc_ok (s : shape) (a : tensor Z) : Prop := shp a <> [] /\ bto (shp a) s.
(** One step of a kernel of TensorProof.v whose input has shape [s]. *)
Lemma lane_step {TX TY X Y} xshape xat yok yat (T : tensor Z -> TX -> result (tensor Z * TY)) (f : Z -> X -> Z * Y) s acc (x : TX) :
  step_ok xshape xat yok yat T f shp elt always -> acc_ok s acc -> xshape x = Some s ->
  exists acc' y, T acc x = Ok (acc', y) /\ acc_ok s acc' /\ yok s y /\ forall i, valid s i -> (at1 acc' i, yat y i) = f (at1 acc i) (xat x i).
Proof.
  intros H [Hn Hb] Hx. pose proof (H acc x Hn Logic.I) as E. rewrite Hx, (bto_bshape _ _ Hb) in E.
  destruct E as (acc' & y & E & Sa & Hy & Hf). exists acc', y. split; [exact E|]. split; [|split; [exact Hy|]].
  - split; [rewrite Sa; exact (bto_nonempty _ _ Hb Hn)|rewrite Sa; apply bto_refl].
  - intros i Hv. unfold at1 at 1. rewrite Sa, bidx_id by exact Hv. exact (Hf i Hv).
Qed.
Lemma at1_same (x : tensor Z) s i : shp x = s -> valid s i -> at1 x i = elt x i.
Proof. intros <- Hv. unfold at1. rewrite bidx_id by exact Hv. reflexivity. Qed.
Lemma both_shape2 s (x : tensor Z * tensor Z) : both s x -> shape2 x = Some s.
Proof. intros [H1 H2]. unfold shape2. rewrite H1, H2. apply bto_bshape, bto_refl. Qed.
Lemma both_at2 s x i : both s x -> valid s i -> at2 x i = elt2 x i.
Proof. intros [H1 H2] Hv. unfold at2, elt2. rewrite (at1_same _ s), (at1_same _ s) by assumption. reflexivity. Qed.

Lemma unipolar_sim c s ss kn a b : shp a = s -> shp b = s -> cordiv_inv (fd_entry c) s kn ->
  match fsudiv_unipolar_t c ss kn a b with
  | Ok (ss', kn', q) => shp ss' = s /\ cordiv_inv (fd_entry c) s kn' /\ shp q = s /\
      forall i, valid s i -> fsudiv_unipolar c (sync_start ss s i) (cordiv_at (fd_entry c) kn i) (elt a i) (elt b i) = Ok (elt ss' i, cordiv_at (fd_entry c) kn' i, elt q i)
  | Err e => forall i, valid s i -> fsudiv_unipolar c (sync_start ss s i) (cordiv_at (fd_entry c) kn i) (elt a i) (elt b i) = Err e
  end.
Proof.
  intros Ha Hb Hk. unfold fsudiv_unipolar_t, fsudiv_unipolar. pose proof (sync_step (fd_depth_ss c) ss (a, b)) as E.
  rewrite (both_shape2 s (a, b) (conj Ha Hb)) in E. destruct E as (ss' & o1 & -> & Sss & So & E). cbn [bind fst snd] in *.
  pose proof (cordiv_sim (fd_entry c) (fd_rng c) s kn (o1, b) Hk (conj So Hb)) as Q.
  assert (E' : forall i, valid s i -> skewedsync_step (fd_depth_ss c) (sync_start ss s i) (elt a i, elt b i) = (elt ss' i, (elt o1 i, elt b i))).
  { intros i Hv. specialize (E i Hv). rewrite (both_at2 s (a, b) i (conj Ha Hb) Hv), (at1_same _ s i Hb Hv) in E. symmetry. exact E. }
  destruct (cordiv_t (fd_entry c) (fd_rng c) kn (o1, b)) as [[kn' q]|e]; cbn [bind fst snd].
  - destruct Q as (Hk' & Sq & Q). split; [exact Sss|]. split; [exact Hk'|]. split; [exact Sq|]. intros i Hv. rewrite (E' i Hv).
    specialize (Q i Hv). unfold elt2 in Q. cbn [fst snd] in Q. rewrite Q. reflexivity.
  - intros i Hv. rewrite (E' i Hv). specialize (Q i Hv). unfold elt2 in Q. cbn [fst snd] in Q. rewrite Q. reflexivity.
Qed.

Definition div_inv (c : fsudiv_cfg) (s : shape) (st : fsudiv_t_st) : Prop :=
  (fd_mode c = Bipolar -> acc_ok s (dt_sa1 st) /\ acc_ok s (dt_sa2 st) /\ acc_ok s (dt_b2u1 st) /\ acc_ok s (dt_b2u2 st) /\ acc_ok s (dt_u2b st)) /\
  cordiv_inv (fd_entry c) s (dt_kn st).
Definition div_at (c : fsudiv_cfg) (s : shape) (st : fsudiv_t_st) (i : index) : fsudiv_st :=
  {| fd_sa1 := at1 (dt_sa1 st) i; fd_sa2 := at1 (dt_sa2 st) i; fd_b2u1 := at1 (dt_b2u1 st) i; fd_b2u2 := at1 (dt_b2u2 st) i;
     fd_u2b := at1 (dt_u2b st) i; fd_ss := sync_start (dt_ss st) s i; fd_kn := cordiv_at (fd_entry c) (dt_kn st) i |}.

Lemma start_same cnt s i : shp cnt = s -> sync_start cnt s i = elt cnt i.
Proof. intros H. unfold sync_start. rewrite H, shape_eqb_refl. reflexivity. Qed.

Lemma div_sim c s : sim_step s (both s) elt2 (fun y => shp y = s) (@elt Z) (fsudiv_t c) (fsudiv_step c) (div_inv c s) (div_at c s).
Proof.
  intros st [a b] [Hacc Hk] [Ha Hb]. cbn [fst snd] in Ha, Hb. unfold fsudiv_t, fsudiv_step, elt2. cbn [fst snd]. destruct (fd_mode c) eqn:Em.
  - pose proof (unipolar_sim c s (dt_ss st) (dt_kn st) a b Ha Hb Hk) as Q.
    destruct (fsudiv_unipolar_t c (dt_ss st) (dt_kn st) a b) as [[[ss' kn'] q]|e]; cbn [bind].
    + destruct Q as (Sss & Hk' & Sq & Q). split; [split; [congruence|exact Hk']|]. split; [exact Sq|]. intros i Hv.
      cbn [div_at fd_ss fd_kn]. rewrite (Q i Hv). unfold div_at. cbn [dt_sa1 dt_sa2 dt_b2u1 dt_b2u2 dt_u2b dt_ss dt_kn fd_sa1 fd_sa2 fd_b2u1 fd_b2u2 fd_u2b].
      rewrite (start_same _ _ _ Sss). reflexivity.
    + intros i Hv. cbn [div_at fd_ss fd_kn]. rewrite (Q i Hv). reflexivity.
  - destruct (Hacc eq_refl) as (A1 & A2 & A3 & A4 & A5).
    destruct (lane_step _ _ _ _ _ _ s (dt_sa1 st) a (signabs_step_ok (fd_depth_sa c)) A1) as (sa1 & [sg1 ab1] & -> & A1' & [Sg1 Sb1] & E1); [unfold shape1; congruence|].
    destruct (lane_step _ _ _ _ _ _ s (dt_sa2 st) b (signabs_step_ok (fd_depth_sa c)) A2) as (sa2 & [sg2 ab2] & -> & A2' & [Sg2 Sb2] & E2); [unfold shape1; congruence|].
    cbn [bind fst snd] in *.
    destruct (lane_step _ _ _ _ _ _ s (dt_b2u1 st) ab1 (bi2uni_step_ok 1) A3) as (u1 & x1 & -> & A3' & Sx1 & E3); [unfold shape1; congruence|].
    destruct (lane_step _ _ _ _ _ _ s (dt_b2u2 st) ab2 (bi2uni_step_ok 1) A4) as (u2 & x2 & -> & A4' & Sx2 & E4); [unfold shape1; congruence|].
    cbn [bind fst snd]. unfold out1 in Sx1, Sx2.
    assert (L1 : forall i, valid s i -> fsusignabs_step (fd_depth_sa c) (at1 (dt_sa1 st) i) (elt a i) = (at1 sa1 i, (elt sg1 i, elt ab1 i)))
      by (intros i Hv; specialize (E1 i Hv); rewrite (at1_same _ s i Ha Hv) in E1; symmetry; exact E1).
    assert (L2 : forall i, valid s i -> fsusignabs_step (fd_depth_sa c) (at1 (dt_sa2 st) i) (elt b i) = (at1 sa2 i, (elt sg2 i, elt ab2 i)))
      by (intros i Hv; specialize (E2 i Hv); rewrite (at1_same _ s i Hb Hv) in E2; symmetry; exact E2).
    assert (L3 : forall i, valid s i -> bi2uni_step 1 (at1 (dt_b2u1 st) i) (elt ab1 i) = (at1 u1 i, elt x1 i))
      by (intros i Hv; specialize (E3 i Hv); rewrite (at1_same _ s i Sb1 Hv) in E3; symmetry; exact E3).
    assert (L4 : forall i, valid s i -> bi2uni_step 1 (at1 (dt_b2u2 st) i) (elt ab2 i) = (at1 u2 i, elt x2 i))
      by (intros i Hv; specialize (E4 i Hv); rewrite (at1_same _ s i Sb2 Hv) in E4; symmetry; exact E4).
    pose proof (unipolar_sim c s (dt_ss st) (dt_kn st) x1 x2 Sx1 Sx2 Hk) as Q.
    destruct (fsudiv_unipolar_t c (dt_ss st) (dt_kn st) x1 x2) as [[[ss' kn'] q]|e]; cbn [bind].
    + destruct Q as (Sss & Hk' & Sq & Q).
      destruct (lane_step _ _ _ _ _ _ s (dt_u2b st) q (uni2bi_step_ok 2) A5) as (u & y & -> & A5' & Sy & E5); [unfold shape1; congruence|].
      cbn [bind fst snd]. unfold out1 in Sy.
      assert (L5 : forall i, valid s i -> uni2bi_step 2 (at1 (dt_u2b st) i) (elt q i) = (at1 u i, elt y i))
        by (intros i Hv; specialize (E5 i Hv); rewrite (at1_same _ s i Sq Hv) in E5; symmetry; exact E5).
      destruct (tmap2_l Z.lxor sg1 sg2) as (g & -> & _ & Sg & Eg); [rewrite Sg1, Sg2; apply bto_refl|]. cbn [bind].
      destruct (tmap2_l Z.lxor g y) as (o & -> & _ & So & Eo); [rewrite Sg, Sg1, Sy; apply bto_refl|]. cbn [bind].
      split; [split; [intros _; cbn [dt_sa1 dt_sa2 dt_b2u1 dt_b2u2 dt_u2b]; auto|exact Hk']|]. split; [congruence|].
      intros i Hv. cbn [div_at fd_sa1 fd_sa2 fd_b2u1 fd_b2u2 fd_u2b fd_ss fd_kn].
      rewrite (L1 i Hv), (L2 i Hv), (L3 i Hv), (L4 i Hv), (Q i Hv), (L5 i Hv). unfold div_at.
      cbn [dt_sa1 dt_sa2 dt_b2u1 dt_b2u2 dt_u2b dt_ss dt_kn]. rewrite (start_same _ _ _ Sss).
      rewrite (Eo i), (Eg i) by congruence. rewrite Sg2, Sy, (bidx_id s i Hv). reflexivity.
    + intros i Hv. cbn [div_at fd_sa1 fd_sa2 fd_b2u1 fd_b2u2 fd_u2b fd_ss fd_kn].
      rewrite (L1 i Hv), (L2 i Hv), (L3 i Hv), (L4 i Hv), (Q i Hv). reflexivity.
Qed.
Lemma tone_ok s v : s <> [] -> acc_ok s (tone v).
Proof. intros H. split; [discriminate|apply tone_to, H]. Qed.
Lemma div_lanes c s xs : (fd_mode c = Bipolar -> s <> []) -> Forall (both s) xs ->
  same_lanes elt2 (fun y => shp y = s) (@elt Z) s (fsudiv_t c) (fsudiv_t_init c) (fsudiv_step c) (fsudiv_init c) xs.
Proof.
  intros Hs Hx. apply (sim_lanes _ _ _ _ _ _ _ _ _ (div_sim c s)); [|intros i Hv|exact Hx].
  - split; [|left; reflexivity]. intros Hm. specialize (Hs Hm). repeat split; try discriminate; apply tone_to, Hs.
  - unfold div_at, fsudiv_t_init, fsudiv_init. f_equal. cbn [dt_ss]. unfold sync_start. destruct (shape_eqb _ s); reflexivity.
Qed.

(** ** FSUSqrt, trace *)
Definition trace_inv (s : shape) (st : sqrt_trace_t_st) : Prop :=
  acc_ok s (tt_trace st) /\ acc_ok s (tt_b2u st) /\ acc_ok s (tt_jk st) /\ cordiv_inv 4 s (tt_kn st) /\ acc_ok s (tt_dff st).
Definition trace_at (st : sqrt_trace_t_st) (i : index) : sqrt_trace_st :=
  {| st_trace := at1 (tt_trace st) i; st_b2u := at1 (tt_b2u st) i; st_jk := at1 (tt_jk st) i;
     st_kn := cordiv_at 4 (tt_kn st) i; st_dff := at1 (tt_dff st) i |}.

Lemma same_ok s (a : tensor Z) : s <> [] -> shp a = s -> acc_ok s a.
Proof. intros Hn <-. split; [exact Hn|apply bto_refl]. Qed.

Lemma unipolar_trace_sim jk rng s st o : s <> [] -> shp o = s -> trace_inv s st ->
  match sqrt_unipolar_trace_t jk rng st o with
  | Ok st' => trace_inv s st' /\ forall i, valid s i -> sqrt_unipolar_trace jk rng (trace_at st i) (elt o i) = Ok (trace_at st' i)
  | Err e => forall i, valid s i -> sqrt_unipolar_trace jk rng (trace_at st i) (elt o i) = Err e
  end.
Proof.
  intros Hn So (A1 & A2 & A3 & A4 & A5). unfold sqrt_unipolar_trace_t, sqrt_unipolar_trace. destruct jk.
  - assert (B : both s (o, tlike 1 o)) by (split; exact So).
    destruct (lane_step _ _ _ _ _ _ s (tt_jk st) (o, tlike 1 o) jkff_step_ok A3 (both_shape2 s _ B)) as (q & y & -> & A3' & Sy & E).
    cbn [bind fst snd]. unfold out1 in Sy. split.
    + split; [exact (same_ok s y Hn Sy)|]. split; [exact A2|]. split; [exact A3'|]. split; [exact A4|exact A5].
    + intros i Hv. specialize (E i Hv). rewrite (both_at2 s _ i B Hv) in E. unfold elt2 in E. cbn [fst snd elt tlike] in E.
      cbn [trace_at st_jk st_b2u st_kn st_dff]. rewrite <- E. unfold trace_at. cbn [tt_trace tt_b2u tt_jk tt_kn tt_dff].
      rewrite (at1_same y s i Sy Hv). reflexivity.
  - set (nd := tmap (fun x => 1 - x) (tt_dff st)). destruct A5 as [D1 D2].
    destruct (tmap2_r Z.land nd o) as (dd & -> & Sdd & Edd); [cbn [shp nd tmap]; rewrite So; exact D2|]. cbn [bind]. rewrite So in *.
    destruct (tmap2_r Z.add (tt_dff st) dd) as (dv & -> & Sdv & Edv); [rewrite Sdd; exact D2|]. cbn [bind]. rewrite Sdd in *.
    pose proof (cordiv_sim 4 rng s (tt_kn st) (dd, dv) A4 (conj Sdd Sdv)) as Q. unfold elt2 in Q. cbn [fst snd] in Q.
    assert (L : forall i, valid s i -> Z.land (1 - at1 (tt_dff st) i) (elt o i) = elt dd i /\ at1 (tt_dff st) i + elt dd i = elt dv i).
    { intros i Hv. rewrite (Edv i Hv), (Edd i Hv). split; reflexivity. }
    destruct (cordiv_t 4 rng (tt_kn st) (dd, dv)) as [[kn' q]|e]; cbn [bind fst snd].
    + destruct Q as (Hk' & Sq & Q). split.
      * split; [exact (same_ok s q Hn Sq)|]. split; [exact A2|]. split; [exact A3|]. split; [exact Hk'|]. split; [exact D1|exact D2].
      * intros i Hv. cbn [trace_at st_dff st_kn st_jk st_b2u]. destruct (L i Hv) as [-> ->]. rewrite (Q i Hv). unfold trace_at.
        cbn [tt_trace tt_b2u tt_jk tt_kn tt_dff]. rewrite (at1_same q s i Sq Hv). reflexivity.
    + intros i Hv. cbn [trace_at st_dff st_kn st_jk st_b2u]. destruct (L i Hv) as [-> ->]. rewrite (Q i Hv). reflexivity.
Qed.

Lemma trace_sim m jk rng s : s <> [] ->
  sim_step s (fun x => shp x = s) (@elt Z) (fun y => shp y = s) (@elt Z) (sqrt_trace_t m jk rng) (sqrt_trace_step m jk rng) (trace_inv s) trace_at.
Proof.
  intros Hn st x Hi Hx. unfold sqrt_trace_t, sqrt_trace_step. pose proof Hi as (A1 & A2 & A3 & A4 & A5). destruct A1 as [T1 T2].
  destruct (tmap2_r Z.land (tmap (fun x => 1 - x) (tt_trace st)) x) as (a & -> & Sa & Ea); [cbn [shp tmap]; rewrite Hx; exact T2|]. cbn [bind]. rewrite Hx in *.
  destruct (tmap2_l Z.add a (tt_trace st)) as (o & -> & _ & So & Eo); [rewrite Sa; exact T2|]. cbn [bind]. rewrite Sa in *.
  assert (L : forall i, valid s i -> Z.land (1 - at1 (tt_trace st) i) (elt x i) + at1 (tt_trace st) i = elt o i).
  { intros i Hv. rewrite (Eo i Hv), (Ea i Hv). reflexivity. }
  destruct m.
  - pose proof (unipolar_trace_sim jk rng s st o Hn So Hi) as Q. destruct (sqrt_unipolar_trace_t jk rng st o) as [st'|e]; cbn [bind].
    + destruct Q as [Hi' Q]. split; [exact Hi'|]. split; [exact So|]. intros i Hv. cbv zeta. cbn [trace_at st_trace]. rewrite (L i Hv).
      rewrite (Q i Hv). reflexivity.
    + intros i Hv. cbv zeta. cbn [trace_at st_trace]. rewrite (L i Hv), (Q i Hv). reflexivity.
  - destruct (lane_step _ _ _ _ _ _ s (tt_b2u st) o (bi2uni_step_ok 1) A2) as (u & y & -> & A2' & Sy & E2); [unfold shape1; congruence|].
    cbn [bind fst snd]. unfold out1 in Sy.
    set (st1 := {| tt_trace := tt_trace st; tt_b2u := u; tt_jk := tt_jk st; tt_kn := tt_kn st; tt_dff := tt_dff st |}).
    assert (Hi1 : trace_inv s st1) by (split; [split; assumption|]; split; [exact A2'|]; split; [exact A3|]; split; [exact A4|exact A5]).
    assert (L2 : forall i, valid s i -> bi2uni_step 1 (at1 (tt_b2u st) i) (elt o i) = (at1 u i, elt y i))
      by (intros i Hv; specialize (E2 i Hv); rewrite (at1_same _ s i So Hv) in E2; symmetry; exact E2).
    pose proof (unipolar_trace_sim jk rng s st1 y Hn Sy Hi1) as Q. destruct (sqrt_unipolar_trace_t jk rng st1 y) as [st'|e]; cbn [bind].
    + destruct Q as [Hi' Q]. split; [exact Hi'|]. split; [exact So|]. intros i Hv. cbv zeta. cbn [trace_at st_trace st_b2u st_jk st_kn st_dff].
      rewrite (L i Hv), (L2 i Hv). specialize (Q i Hv). unfold trace_at in Q at 1. cbn [st1 tt_trace tt_b2u tt_jk tt_kn tt_dff] in Q. rewrite Q. reflexivity.
    + intros i Hv. cbv zeta. cbn [trace_at st_trace st_b2u st_jk st_kn st_dff].
      rewrite (L i Hv), (L2 i Hv). specialize (Q i Hv). unfold trace_at in Q at 1. cbn [st1 tt_trace tt_b2u tt_jk tt_kn tt_dff] in Q. rewrite Q. reflexivity.
Qed.
Lemma trace_lanes m jk rng s xs : s <> [] -> Forall (fun x => shp x = s) xs ->
  same_lanes (@elt Z) (fun y => shp y = s) (@elt Z) s (sqrt_trace_t m jk rng) sqrt_trace_t_init (sqrt_trace_step m jk rng) sqrt_trace_init xs.
Proof.
  intros Hn Hx. apply (sim_lanes _ _ _ _ _ _ _ _ _ (trace_sim m jk rng s Hn)); [|reflexivity|exact Hx].
  repeat split; try discriminate; try (apply tone_to, Hn). left. reflexivity.
Qed.

(** ** FSUSqrt, emit *)
Lemma addat_stack (x e : tensor Z) s : shp x = s -> shp e = s ->
  exists t, tstack2 x e = Ok t /\ addshape 0 t = Some s /\ forall i, valid s i -> addat 0 t i = [elt x i; elt e i].
Proof.
  intros Hx He. unfold tstack2. rewrite Hx, He, shape_eqb_refl. eexists. split; [reflexivity|].
  assert (Hr : remove_at (length s) (s ++ [2%nat]) = s).
  { unfold remove_at. rewrite firstn_app, Nat.sub_diag, firstn_all, skipn_all2 by (rewrite app_length; cbn; lia).
    cbn [firstn]. rewrite !app_nil_r. reflexivity. }
  unfold addshape, addat. cbn [shp elt]. rewrite app_length. cbn [length].
  replace (length s + 1 - 1 - 0)%nat with (length s) by lia. rewrite Hr. split.
  - destruct (Nat.ltb_spec 0 (length s + 1)); [reflexivity|lia].
  - intros i Hv. rewrite bidx_id by exact Hv. rewrite app_nth2, Nat.sub_diag by lia. cbn [nth seq map]. pose proof (valid_length _ _ Hv) as Hl.
    assert (E : forall j, insert_at (length s) j i = i ++ [j]) by (intros j; unfold insert_at; rewrite <- Hl, firstn_all, skipn_all; reflexivity).
    rewrite !E, !last_last, !removelast_last. reflexivity.
Qed.
Definition qacc_ok (s : shape) (a : tensor Q) : Prop := shp a <> [] /\ bto (shp a) s.
Definition emit_inv (n : nat) (s : shape) (st : sqrt_emit_t_st) : Prop :=
  qacc_ok s (ft_acc (et_add st)) /\ streg_inv n s (et_sr st) /\ acc_ok s (et_b2u st).
Definition emit_at (n : nat) (s : shape) (st : sqrt_emit_t_st) (i : index) : sqrt_emit_st :=
  {| se_emit := sync_start (et_emit st) s i; se_add := add_at (et_add st) (bidx (shp (ft_acc (et_add st))) i);
     se_sr := streg_at n (et_sr st) i; se_idx := 0; se_b2u := at1 (et_b2u st) i |}.

(** One call on an input of shape [s], the emitted bits being [e]; [s'] is the shape of the output. *)
Lemma emit_body m n s s' st x e : (0 < n)%nat -> shp x = s -> shp e = s -> bto s s' -> emit_inv n s' st -> bshape (shp (ft_acc (et_add st))) s = Some s' ->
  exists st' y, (do in_stack <- tstack2 x e;
  do o <- fsuadd_t sqrt_add_cfg 0 (et_add st) in_stack;
  let '(add', output) := o in
  do s <- streg_t n (et_sr st) (tmap (fun x => 1 - x) output) None 0;
  let '(sr', (scrambled, _)) := s in
  match m with
  | Unipolar =>
      do e <- tmap2 Z.land scrambled output;
      Ok ({| et_emit := e; et_add := add'; et_sr := sr'; et_b2u := et_b2u st |}, output)
  | Bipolar =>
      do u <- bi2uni_t 1 (et_b2u st) output;
      do e <- tmap2 Z.land scrambled (snd u);
      Ok ({| et_emit := e; et_add := add'; et_sr := sr'; et_b2u := fst u |}, output)
  end) = Ok (st', y) /\ emit_inv n s' st' /\ shp (et_emit st') = s' /\ shp (ft_acc (et_add st')) = s' /\ shp y = s' /\
  forall i, valid s' i -> sqrt_emit_step m n {| se_emit := elt e (bidx s i); se_add := add_at (et_add st) (bidx (shp (ft_acc (et_add st))) i);
     se_sr := streg_at n (et_sr st) i; se_idx := 0; se_b2u := at1 (et_b2u st) i |} (elt x (bidx s i)) =
    ({| se_emit := elt (et_emit st') i; se_add := add_at (et_add st') i; se_sr := streg_at n (et_sr st') i; se_idx := 0; se_b2u := at1 (et_b2u st') i |}, elt y i).
Proof.
  intros Hn Hx He Hss ([Q1 Q2] & Hsr & Hu) Hb. destruct (addat_stack x e s Hx He) as (t & -> & At & Et). cbn [bind].
  pose proof (add_step_ok sqrt_add_cfg 0 (et_add st) t Q1) as E. rewrite At, Hb in E. destruct E as (add' & o & -> & Sa & So & E). cbn [bind]. unfold out1 in So.
  destruct (streg_step n s' (et_sr st) (tmap (fun x => 1 - x) o) None 0 Hn Hsr) as (sr' & sc & c & -> & Hsr' & Ssc & _ & Esr); [exact So|exact Logic.I|]. cbn [bind].
  pose proof (bto_nonempty _ _ Q2 Q1) as Hs'.
  assert (L : forall i, valid s' i -> addat 0 t i = [elt x (bidx s i); elt e (bidx s i)]).
  { intros i Hv. rewrite <- (Et (bidx s i)) by exact (bidx_valid _ _ _ Hss Hv). symmetry. apply (addat_xat 0 t s s s'); [exact At|apply bto_refl|exact Hss|exact Hv]. }
  assert (Q3 : qacc_ok s' (ft_acc add')) by (split; [rewrite Sa; exact Hs'|rewrite Sa; apply bto_refl]).
  destruct m.
  - destruct (tmap2_l Z.land sc o) as (em & -> & _ & Sem & Eem); [rewrite Ssc, So; apply bto_refl|]. cbn [bind]. rewrite Ssc in *.
    do 2 eexists. split; [reflexivity|]. cbn [et_emit et_add et_sr et_b2u]. split; [split; [exact Q3|]; split; [right; exact Hsr'|exact Hu]|].
    split; [exact Sem|]. split; [exact Sa|]. split; [exact So|]. intros i Hv. unfold sqrt_emit_step. cbn [se_emit se_add se_sr se_idx se_b2u].
    rewrite <- (L i Hv), <- (E i Hv). unfold oat1. rewrite Zmod_0_l. specialize (Esr i Hv). cbn [elt tmap option_map] in Esr. change (Z.of_nat 0) with 0 in Esr.
    rewrite <- Esr. rewrite (Eem i Hv), So, (bidx_id s' i Hv). reflexivity.
  - destruct (lane_step _ _ _ _ _ _ s' (et_b2u st) o (bi2uni_step_ok 1) Hu) as (u & y & -> & Hu' & Sy & E2); [unfold shape1; congruence|].
    cbn [bind fst snd]. unfold out1 in Sy.
    destruct (tmap2_l Z.land sc y) as (em & -> & _ & Sem & Eem); [rewrite Ssc, Sy; apply bto_refl|]. cbn [bind]. rewrite Ssc in *.
    do 2 eexists. split; [reflexivity|]. cbn [et_emit et_add et_sr et_b2u]. split; [split; [exact Q3|]; split; [right; exact Hsr'|exact Hu']|].
    split; [exact Sem|]. split; [exact Sa|]. split; [exact So|]. intros i Hv. unfold sqrt_emit_step. cbn [se_emit se_add se_sr se_idx se_b2u].
    rewrite <- (L i Hv), <- (E i Hv). unfold oat1. rewrite Zmod_0_l. specialize (Esr i Hv). cbn [elt tmap option_map] in Esr. change (Z.of_nat 0) with 0 in Esr.
    rewrite <- Esr. specialize (E2 i Hv). rewrite (at1_same _ s' i So Hv) in E2. unfold oat1 in E2. rewrite <- E2. rewrite (Eem i Hv), Sy, (bidx_id s' i Hv). reflexivity.
Qed.

Lemma emit_sim m n s : (0 < n)%nat -> s <> [] ->
  sim_step s (fun x => shp x = s) (@elt Z) (fun y => shp y = s) (@elt Z) (sqrt_emit_t m n) (total (sqrt_emit_step m n)) (emit_inv n s) (emit_at n s).
Proof.
  intros Hn0 Hn st x Hi Hx. unfold sqrt_emit_t. cbv zeta. set (e := if shape_eqb (shp (et_emit st)) (shp x) then et_emit st else tlike 0 x).
  assert (Se : shp e = s) by (unfold e; destruct (shape_eqb (shp (et_emit st)) (shp x)) eqn:Q; [apply shape_eqb_spec in Q; congruence|exact Hx]).
  assert (Ee : forall i, elt e i = sync_start (et_emit st) s i) by (intros i; unfold e, sync_start; rewrite Hx; destruct (shape_eqb (shp (et_emit st)) s); reflexivity).
  clearbody e. pose proof Hi as ([Q1 Q2] & _).
  destruct (emit_body m n s s st x e Hn0 Hx Se (bto_refl s) Hi (bto_bshape _ _ Q2)) as (st' & y & -> & Hi' & Sem & Sac & Sy & E).
  split; [exact Hi'|]. split; [exact Sy|]. intros i Hv. specialize (E i Hv). rewrite (bidx_id s i Hv), (Ee i) in E. unfold total, emit_at. rewrite E.
  rewrite (start_same _ _ _ Sem), Sac, (bidx_id s i Hv). reflexivity.
Qed.
Lemma emit_lanes m n s xs : (0 < n)%nat -> s <> [] -> Forall (fun x => shp x = s) xs ->
  same_lanes (@elt Z) (fun y => shp y = s) (@elt Z) s (sqrt_emit_t m n) (sqrt_emit_t_init n) (total (sqrt_emit_step m n)) (sqrt_emit_init n) xs.
Proof.
  intros Hn0 Hn Hx. apply (sim_lanes _ _ _ _ _ _ _ _ _ (emit_sim m n s Hn0 Hn)); [|intros i Hv|exact Hx].
  - repeat split; try discriminate; try (apply tone_to, Hn). left. reflexivity.
  - unfold emit_at, sqrt_emit_t_init, sqrt_emit_init. f_equal. cbn [et_emit]. unfold sync_start. destruct (shape_eqb _ s); reflexivity.
Qed.

(** A 0-dimensional input: the adder returns shape [1], so emit_out never has the input's shape and is replaced by 0 at every call. *)
Lemma emit_scalar m n xs : (0 < n)%nat -> Forall (fun x => shp x = [] /\ bit (elt x [])) xs ->
  exists st ys, run_r (sqrt_emit_t m n) (sqrt_emit_t_init n) xs = Ok (st, ys) /\ length ys = length xs /\ Forall (fun y => shp y = [1%nat]) ys /\
  map (fun y => elt y [0%nat]) ys = map (fun x => elt x []) xs.
Proof.
  intros Hn Hx.
  assert (G : forall xs, Forall (fun x => shp x = [] /\ bit (elt x [])) xs -> forall st, emit_inv n [1%nat] st -> shp (ft_acc (et_add st)) = [1%nat] ->
    shp (et_emit st) = [1%nat] -> emit_add_ok (add_at (et_add st) [0%nat]) 0 ->
    exists st' ys, run_r (sqrt_emit_t m n) st xs = Ok (st', ys) /\ length ys = length xs /\ Forall (fun y => shp y = [1%nat]) ys /\
    map (fun y => elt y [0%nat]) ys = map (fun x => elt x []) xs).
  { clear xs Hx. induction 1 as [|x xs [Sx Bx] Hxs IH]; intros st Hi Sa Se Ha.
    - exists st, []. repeat split. constructor.
    - assert (Hv : valid [1%nat] [0%nat]) by (cbn; lia).
      destruct (emit_body m n [] [1%nat] st x (tlike 0 x) Hn Sx Sx Logic.I Hi ltac:(rewrite Sa; reflexivity)) as (st1 & y & Er & Hi' & Sem & Sac & Sy & E).
      specialize (E [0%nat] Hv). rewrite Sa in E. cbn [bidx Nat.eqb elt tlike] in E.
      assert (E1 : sqrt_emit_t m n st x = Ok (st1, y)).
      { unfold sqrt_emit_t. rewrite Se, Sx. cbn [shape_eqb]. cbv zeta. exact Er. }
      destruct (emit_add_step _ 0 (elt x []) 0 Ha ltac:(lia) Bx ltac:(left; reflexivity) ltac:(destruct Bx; lia)) as [O1 O2].
      assert (Bo : b2z (0 + elt x [] + 0 >=? 1) = elt x []) by (destruct Bx as [->| ->]; reflexivity).
      rewrite Bo in *. replace (0 + elt x [] + 0 - elt x []) with 0 in O2 by lia.
      assert (Oy : elt y [0%nat] = elt x [] /\ emit_add_ok (add_at (et_add st1) [0%nat]) 0).
      { unfold sqrt_emit_step in E. cbn [se_emit se_add se_sr se_idx se_b2u] in E.
        destruct (fsuadd_step sqrt_add_cfg (add_at (et_add st) [0%nat]) [elt x []; 0]) as [add' output]. cbn [fst snd] in O1, O2.
        cbv zeta in E. destruct (shiftreg_step _ _) as [sr' [sc cc]]. destruct m.
        - injection E as _ E2 _ _ E3. rewrite <- E3, <- E2. split; [exact O1|exact O2].
        - destruct (bi2uni_step _ _ _) as [b' ou]. injection E as _ E2 _ _ E3. rewrite <- E3, <- E2. split; [exact O1|exact O2]. }
      destruct Oy as [Oy Ha']. destruct (IH st1 Hi' Sac Sem Ha') as (st2 & ys & Er2 & Hl & HS & Hm).
      exists st2, (y :: ys). cbn [run_r]. rewrite E1, Er2. split; [reflexivity|]. split; [cbn; lia|]. split; [constructor; assumption|].
      cbn [map]. rewrite Oy, Hm. reflexivity. }
  apply (G xs Hx); try reflexivity.
  - repeat split; try discriminate; try (cbn; auto). left. reflexivity.
  - left. split; reflexivity.
Qed.

(** ** When ShiftReg raises *)
Lemma streg_index entry st x mask k : (sr_first st = false -> dim0 (sr_reg st) = entry) -> (entry <= k)%nat -> streg_t entry st x mask k = Err IndexError.
Proof.
  intros Hd Hk. unfold streg_t. cbv zeta. unfold tslice. destruct (sr_first st).
  - rewrite dim0_snoc. destruct (Nat.ltb_spec k entry); [lia|reflexivity].
  - rewrite Hd by reflexivity. destruct (Nat.ltb_spec k entry); [lia|reflexivity].
Qed.
Lemma streg_mask entry st x m k : (sr_first st = false -> dim0 (sr_reg st) = entry) -> (k < entry)%nat -> shp m <> shp x ->
  streg_t entry st x (Some m) k = Err AssertionError.
Proof.
  intros Hd Hk Hm. unfold streg_t. cbv zeta. destruct (shape_eqb (shp m) (shp x)) eqn:E; [apply shape_eqb_spec in E; contradiction|].
  unfold tslice. destruct (sr_first st).
  - rewrite dim0_snoc. destruct (Nat.ltb_spec k entry); [reflexivity|lia].
  - rewrite Hd by reflexivity. destruct (Nat.ltb_spec k entry); [reflexivity|lia].
Qed.
Lemma streg_reshape entry s st x k : sr_first st = false -> shp (sr_reg st) = s ++ [entry] -> (k < entry)%nat ->
  (bshape (strip1 (shp x)) s = Some s -> exists st' y, streg_t entry st x None k = Ok (st', y) /\ shp (sr_reg st') = s ++ [entry]) /\
  (bshape (strip1 (shp x)) s <> Some s -> streg_t entry st x None k = Err RuntimeError).
Proof.
  intros Hf Hs Hk. unfold streg_t. cbv zeta. rewrite Hf. unfold tslice, dim0. rewrite Hs, last_last. destruct (Nat.ltb_spec k entry); [|lia]. cbn [bind].
  unfold tset, troll, dim0. cbn [shp]. rewrite Hs, last_last, removelast_last. destruct (Nat.ltb_spec (entry - 1) entry); [|lia]. cbv zeta. split.
  - intros ->. rewrite shape_eqb_refl. cbn [bind]. do 2 eexists. split; [reflexivity|]. reflexivity.
  - intros Hb. destruct (bshape (strip1 (shp x)) s) as [r|]; [|reflexivity]. destruct (shape_eqb r s) eqn:E; [|reflexivity].
    apply shape_eqb_spec in E. congruence.
Qed.
