(** Proofs about /repo/kernel/{div,sqrt}.py. *)
Require Import Verif.BaseLemmas Verif.GenModel Verif.GenProof Verif.ShuffleModel Verif.ShuffleProof.
Require Import Verif.AddModel Verif.AddProof Verif.KernelModel Verif.KernelProof Verif.DivModel.
Open Scope Z_scope.

(** ** CORDIV_kernel *)
Definition cordiv_tot (entry : nat) (rng : list Z) (st : cordiv_st) (inp : Z * Z) : cordiv_st * Z :=
  let '(dividend, divisor) := inp in
  let e := b2z (divisor =? 1) in
  let q := e * dividend + (1 - e) * nthZ (cd_sr st) (nthZ rng (cd_idx st mod Z.of_nat entry)) in
  ({| cd_sr := fst (shiftreg_step (cd_sr st) (q, Some e, 0)); cd_idx := cd_idx st + 1 |}, q).

Lemma cordiv_ok w rng st p : index_seq w rng -> 0 <= cd_idx st ->
  cordiv_step (2 ^ w) rng st p = Ok (cordiv_tot (2 ^ w) rng st p).
Proof.
  intros [Hl Hr] Hi. destruct p as [a b]. unfold cordiv_step, cordiv_tot.
  pose proof (p2_pos w) as Hp. rewrite p2_nat.
  pose proof (Z.mod_pos_bound (cd_idx st) (p2 w) Hp) as Hm.
  assert (Hz : zlen rng = p2 w) by (unfold zlen; rewrite Hl, p2_nat; reflexivity).
  rewrite Hz. destruct (Z.ltb_spec (cd_idx st mod p2 w) (p2 w)) as [_|C]; [|lia].
  assert (Hn : 0 <= nthZ rng (cd_idx st mod p2 w) < p2 w).
  { unfold nthZ. apply (Forall_nth_lt (fun r => 0 <= r < p2 w)); [exact Hr|].
    rewrite Hl. apply Nat2Z.inj_lt. rewrite p2_nat, Z2Nat.id by lia. lia. }
  destruct (Z.leb_spec 0 (nthZ rng (cd_idx st mod p2 w))) as [_|C]; [|lia].
  destruct (Z.ltb_spec (nthZ rng (cd_idx st mod p2 w)) (p2 w)) as [_|C]; [|lia].
  cbn [andb]. reflexivity.
Qed.

Lemma at_ones_snoc h p : at_ones (h ++ [p]) = at_ones h ++ (if snd p =? 1 then [fst p] else []).
Proof. unfold at_ones. rewrite filter_app, map_app. cbn [filter]. destruct (snd p =? 1); reflexivity. Qed.

Lemma recent_length n past : length (recent n past) = n.
Proof. unfold recent. rewrite lastn_length; [reflexivity|]. rewrite app_length, alternating_length. lia. Qed.

Lemma recent_snoc n past x : (1 <= n)%nat -> recent n (past ++ [x]) = tl (recent n past) ++ [x].
Proof.
  intros Hn. unfold recent. rewrite app_assoc. apply lastn_snoc; [|exact Hn].
  rewrite app_length, alternating_length. lia.
Qed.

Lemma recent_nil n : recent n [] = alternating n.
Proof. unfold recent. rewrite app_nil_r. apply lastn_all. rewrite alternating_length. lia. Qed.

Lemma recent_bits n past : bits past -> bits (recent n past).
Proof. intros H. apply bits_lastn, bits_app; [apply alternating_bits|exact H]. Qed.

Lemma shift_masked n past x e i : (1 <= n)%nat -> bit e ->
  fst (shiftreg_step (recent n past) (x, Some e, i)) = recent n (past ++ (if e =? 1 then [x] else [])).
Proof.
  intros Hn He. unfold shiftreg_step. cbn [fst].
  pose proof (recent_length n past) as L.
  assert (Hne : recent n past <> []) by (destruct (recent n past); [cbn in L; lia|discriminate]).
  rewrite (roll_set _ x Hne), map2_mask.
  - destruct He as [->| ->]; cbn [Z.eqb Pos.eqb]; [rewrite app_nil_r; reflexivity|].
    rewrite recent_snoc by exact Hn. reflexivity.
  - rewrite app_length. destruct (recent n past); [contradiction|]. cbn. lia.
Qed.

Lemma shift_free n past x i : (1 <= n)%nat ->
  fst (shiftreg_step (recent n past) (x, None, i)) = recent n (past ++ [x]).
Proof.
  intros Hn. unfold shiftreg_step. cbn [fst].
  pose proof (recent_length n past) as L.
  rewrite roll_set by (destruct (recent n past); [cbn in L; lia|discriminate]).
  rewrite recent_snoc by exact Hn. reflexivity.
Qed.

Lemma pow2_ge1 w : (1 <= 2 ^ w)%nat.
Proof. pose proof (Nat.pow_nonzero 2 w). lia. Qed.

Lemma cordiv_state w rng h :
  let st := final (cordiv_tot (2 ^ w) rng) (cordiv_init (2 ^ w)) h in
  cd_sr st = recent (2 ^ w) (at_ones h) /\ cd_idx st = zlen h.
Proof.
  cbn zeta. pose proof (pow2_ge1 w) as HN.
  induction h as [|p h [I1 I2]] using rev_ind.
  - unfold cordiv_init. cbn [final run fst cd_sr cd_idx]. rewrite shiftreg_init_alt.
    split; [symmetry; apply recent_nil|reflexivity].
  - rewrite final_snoc. set (st := final _ _ h) in *. clearbody st. destruct p as [a b].
    unfold cordiv_tot. cbn [fst snd cd_sr cd_idx]. rewrite at_ones_snoc. cbn [fst snd].
    rewrite I1, shift_masked by (try exact HN; apply bit_b2z). split.
    + f_equal. f_equal. destruct (b =? 1); cbn [b2z Z.eqb Pos.eqb]; [|reflexivity]. f_equal. lia.
    + rewrite I2. unfold zlen. rewrite app_length. cbn [length]. lia.
Qed.

Lemma cordiv_total w rng h : index_seq w rng ->
  run_r (cordiv_step (2 ^ w) rng) (cordiv_init (2 ^ w)) h =
  Ok (run (cordiv_tot (2 ^ w) rng) (cordiv_init (2 ^ w)) h).
Proof.
  intros Hr.
  destruct (run_r_total (cordiv_step (2 ^ w) rng) (cordiv_tot (2 ^ w) rng) (fun st => 0 <= cd_idx st) (fun _ => True)) with (xs := h) (s := cordiv_init (2 ^ w)) as [E _].
  - intros s x Hs _. split; [apply cordiv_ok; assumption|]. destruct x. cbn. lia.
  - cbn. lia.
  - apply Forall_forall. intros; exact I.
  - exact E.
Qed.

Lemma cordiv_out w rng h k : length rng = (2 ^ w)%nat -> (k < length h)%nat ->
  nth k (outs (cordiv_tot (2 ^ w) rng) (cordiv_init (2 ^ w)) h) 0 =
  if snd (nth k h (0, 0)) =? 1 then fst (nth k h (0, 0))
  else nth (Z.to_nat (cyc rng k)) (recent (2 ^ w) (at_ones (firstn k h))) 0.
Proof.
  intros Hl Hk. rewrite (outs_nth _ _ _ _ (0, 0) _ Hk).
  destruct (cordiv_state w rng (firstn k h)) as [S1 S2].
  set (st := final _ _ (firstn k h)) in *. clearbody st.
  destruct (nth k h (0, 0)) as [a b]. unfold cordiv_tot. cbn [fst snd].
  destruct (b =? 1); cbn [b2z]; [lia|].
  rewrite S1, S2. unfold zlen. rewrite firstn_length, Nat.min_l by lia.
  rewrite p2_nat, (nthZ_mod_cyc w rng _ Hl) by lia. rewrite Nat2Z.id.
  set (c := cyc rng k). change (nthZ (recent (2 ^ w) (at_ones (firstn k h))) c) with
    (nth (Z.to_nat c) (recent (2 ^ w) (at_ones (firstn k h))) 0). lia.
Qed.

Lemma cordiv_kernel_spec w rng h : index_seq w rng ->
  exists st o, run_r (cordiv_step (2 ^ w) rng) (cordiv_init (2 ^ w)) h = Ok (st, o) /\ length o = length h /\
  forall k, (k < length h)%nat ->
    nth k o 0 = if snd (nth k h (0, 0)) =? 1 then fst (nth k h (0, 0))
                else nth (Z.to_nat (cyc rng k)) (recent (2 ^ w) (at_ones (firstn k h))) 0.
Proof.
  intros Hr. rewrite (cordiv_total w rng h Hr).
  exists (final (cordiv_tot (2 ^ w) rng) (cordiv_init (2 ^ w)) h), (outs (cordiv_tot (2 ^ w) rng) (cordiv_init (2 ^ w)) h).
  split; [unfold final, outs; rewrite <- surjective_pairing; reflexivity|].
  split; [apply outs_length|]. intros k Hk. apply cordiv_out; [apply Hr|exact Hk].
Qed.

(** Non powers of two. *)
Lemma perm_seq_index w l : perm_seq w l -> index_seq w l.
Proof.
  intros H. split; [apply perm_seq_len, H|]. apply Forall_forall. intros x Hx.
  assert (Hi : In x (zrange (2 ^ w))) by (eapply Permutation_in; [exact H|exact Hx]).
  unfold zrange in Hi. apply in_map_iff in Hi. destruct Hi as (i & <- & Hi). apply in_seq in Hi.
  rewrite <- p2_nat. lia.
Qed.

Lemma cordiv_nonpow2 entry rng h : (1 <= entry)%nat -> index_seq (cordiv_width entry) rng ->
  (2 ^ cordiv_width entry <> entry)%nat ->
  ((length h <= 2 ^ cordiv_width entry)%nat -> exists r, run_r (cordiv_step entry rng) (cordiv_init entry) h = Ok r) /\
  ((2 ^ cordiv_width entry < length h)%nat -> run_r (cordiv_step entry rng) (cordiv_init entry) h = Err IndexError) /\
  (2 ^ cordiv_width entry < entry)%nat.
Proof.
  intros He [Hl Hr] Hne. unfold cordiv_width in *. set (w := Nat.log2 entry) in *.
  pose proof (Nat.log2_spec entry ltac:(lia)) as [Hlo Hhi]. fold w in Hlo, Hhi.
  assert (Hlt : (2 ^ w < entry)%nat) by lia.
  assert (Hz : zlen rng = p2 w) by (unfold zlen; rewrite Hl, p2_nat; reflexivity).
  assert (Hltz : p2 w < Z.of_nat entry) by (rewrite <- p2_nat; lia).
  assert (G : forall h, (length h <= 2 ^ w)%nat -> exists st o,
    run_r (cordiv_step entry rng) (cordiv_init entry) h = Ok (st, o) /\ cd_idx st = zlen h).
  { induction h0 as [|p h0 IH] using rev_ind; intros L.
    - exists (cordiv_init entry), []. split; reflexivity.
    - rewrite app_length in L. cbn [length] in L. destruct IH as (st & o & E & Ei); [lia|].
      rewrite run_r_snoc, E. destruct p as [a b].
      assert (Hi : cd_idx st mod Z.of_nat entry = cd_idx st).
      { apply Z.mod_small. rewrite Ei. unfold zlen. lia. }
      unfold cordiv_step. rewrite Hi, Hz.
      assert (Hb : 0 <= cd_idx st < p2 w) by (rewrite Ei, <- p2_nat; unfold zlen; lia).
      destruct (Z.ltb_spec (cd_idx st) (p2 w)) as [_|C]; [|lia].
      assert (Hn : 0 <= nthZ rng (cd_idx st) < p2 w).
      { unfold nthZ. apply (Forall_nth_lt (fun r => 0 <= r < p2 w)); [exact Hr|].
        rewrite Hl. apply Nat2Z.inj_lt. rewrite p2_nat, Z2Nat.id by lia. lia. }
      destruct (Z.leb_spec 0 (nthZ rng (cd_idx st))) as [_|C]; [|lia].
      destruct (Z.ltb_spec (nthZ rng (cd_idx st)) (Z.of_nat entry)) as [_|C]; [|lia]. cbn [andb].
      destruct (shiftreg_step _ _) as [sr' oo].
      eexists; eexists; split; [reflexivity|]. cbn [cd_idx]. rewrite Ei. unfold zlen. rewrite app_length. cbn [length]. lia. }
  split; [intros L; destruct (G h L) as (st & o & E & _); eexists; exact E|]. split; [|exact Hlt].
  intros L. rewrite <- (firstn_skipn (2 ^ w) h). rewrite run_r_app.
  destruct (G (firstn (2 ^ w) h)) as (st & o & E & Ei); [rewrite firstn_length; lia|].
  rewrite E. assert (Ls : length (skipn (2 ^ w) h) = (length h - 2 ^ w)%nat) by apply skipn_length.
  destruct (skipn (2 ^ w) h) as [|[a b] r]; [cbn in Ls; lia|]. cbn [run_r].
  assert (Ei' : cd_idx st = p2 w).
  { rewrite Ei. unfold zlen. rewrite firstn_length, Nat.min_l, p2_nat by lia. reflexivity. }
  unfold cordiv_step at 1. rewrite Ei', Z.mod_small by (pose proof (p2_pos w); lia). rewrite Hz.
  rewrite Z.ltb_irrefl. reflexivity.
Qed.

(** ** FSUDiv, unipolar *)
Definition udiv_tot (c : fsudiv_cfg) (st : Z * cordiv_st) (p : Z * Z) : (Z * cordiv_st) * Z :=
  let s1 := skewedsync_step (fd_depth_ss c) (fst st) p in
  let s2 := cordiv_tot (fd_entry c) (fd_rng c) (snd st) (snd s1) in
  ((fst s1, fst s2), snd s2).

Definition udiv_out (c : fsudiv_cfg) (h : list (Z * Z)) : list Z :=
  outs (cordiv_tot (fd_entry c) (fd_rng c)) (cordiv_init (fd_entry c))
       (outs (skewedsync_step (fd_depth_ss c)) skewedsync_init h).

Lemma udiv_tot_run c h : forall st,
  run (udiv_tot c) st h =
  ((final (skewedsync_step (fd_depth_ss c)) (fst st) h,
    final (cordiv_tot (fd_entry c) (fd_rng c)) (snd st) (outs (skewedsync_step (fd_depth_ss c)) (fst st) h)),
   outs (cordiv_tot (fd_entry c) (fd_rng c)) (snd st) (outs (skewedsync_step (fd_depth_ss c)) (fst st) h)).
Proof.
  induction h as [|p h IH]; intros [s k]; [reflexivity|].
  rewrite run_cons, IH. unfold udiv_tot. cbn [fst snd]. rewrite !final_cons, !outs_cons, final_cons. reflexivity.
Qed.

Lemma udiv_ok c w ss kn a b : fd_entry c = (2 ^ w)%nat -> index_seq w (fd_rng c) -> 0 <= cd_idx kn ->
  fsudiv_unipolar c ss kn a b =
  Ok (fst (fst (udiv_tot c (ss, kn) (a, b))), snd (fst (udiv_tot c (ss, kn) (a, b))), snd (udiv_tot c (ss, kn) (a, b))).
Proof.
  intros He Hr Hi. unfold fsudiv_unipolar, udiv_tot. cbn [fst snd].
  destruct (skewedsync_step (fd_depth_ss c) ss (a, b)) as [ss' [x y]]. cbn [fst snd].
  rewrite He, (cordiv_ok w (fd_rng c) kn (x, y) Hr Hi).
  destruct (cordiv_tot (2 ^ w) (fd_rng c) kn (x, y)) as [kn' q]. reflexivity.
Qed.

Definition fsudiv_tot_u (c : fsudiv_cfg) (st : fsudiv_st) (p : Z * Z) : fsudiv_st * Z :=
  let r := udiv_tot c (fd_ss st, fd_kn st) p in
  ({| fd_sa1 := fd_sa1 st; fd_sa2 := fd_sa2 st; fd_b2u1 := fd_b2u1 st; fd_b2u2 := fd_b2u2 st;
      fd_u2b := fd_u2b st; fd_ss := fst (fst r); fd_kn := snd (fst r) |}, snd r).

Lemma fsudiv_uni_outs c h : forall st,
  outs (fsudiv_tot_u c) st h = outs (udiv_tot c) (fd_ss st, fd_kn st) h.
Proof.
  induction h as [|p h IH]; intros st; [reflexivity|]. rewrite !outs_cons, IH. unfold fsudiv_tot_u. cbn [fst snd fd_ss fd_kn].
  rewrite <- surjective_pairing. reflexivity.
Qed.

Lemma fsudiv_uni_run c w h : fd_mode c = Unipolar -> fd_entry c = (2 ^ w)%nat -> index_seq w (fd_rng c) ->
  exists st, run_r (fsudiv_step c) (fsudiv_init c) h = Ok (st, udiv_out c h).
Proof.
  intros Hm He Hr.
  destruct (run_r_total (fsudiv_step c) (fsudiv_tot_u c) (fun st => 0 <= cd_idx (fd_kn st)) (fun _ => True)) with (xs := h) (s := fsudiv_init c) as [E _].
  - intros s [a b] Hs _. split.
    + unfold fsudiv_step. rewrite Hm, (udiv_ok c w _ _ a b He Hr Hs). reflexivity.
    + cbn [fsudiv_tot_u fst fd_kn]. unfold udiv_tot. cbn [fst snd].
      destruct (snd (skewedsync_step (fd_depth_ss c) (fd_ss s) (a, b))). cbn. lia.
  - cbn. lia.
  - apply Forall_forall. intros; exact I.
  - eexists. rewrite E. f_equal. rewrite (surjective_pairing (run _ _ _)). f_equal.
    change (snd (run (fsudiv_tot_u c) (fsudiv_init c) h)) with (outs (fsudiv_tot_u c) (fsudiv_init c) h).
    rewrite fsudiv_uni_outs. unfold outs at 1. rewrite udiv_tot_run. reflexivity.
Qed.

Lemma udiv_at_ones c w h : fd_entry c = (2 ^ w)%nat -> index_seq w (fd_rng c) ->
  at_ones (combine (udiv_out c h) (map snd h)) = at_ones (outs (skewedsync_step (fd_depth_ss c)) skewedsync_init h).
Proof.
  intros He Hr. unfold udiv_out. rewrite He.
  assert (G : forall (sy : list (Z * Z)) kn, 
    at_ones (combine (outs (cordiv_tot (2 ^ w) (fd_rng c)) kn sy) (map snd sy)) = at_ones sy).
  { induction sy as [|[a b] sy IH]; intros kn; [reflexivity|].
    rewrite outs_cons. cbn [map combine snd]. unfold at_ones. cbn [filter fst snd].
    destruct (b =? 1) eqn:Eb; cbn [map]; fold (at_ones sy); 
      fold (at_ones (combine (outs (cordiv_tot (2 ^ w) (fd_rng c)) (fst (cordiv_tot (2 ^ w) (fd_rng c) kn (a, b))) sy) (map snd sy)));
      rewrite IH; [|reflexivity].
    f_equal. unfold cordiv_tot. cbn [snd fst]. rewrite Eb. cbn [b2z]. lia. }
  assert (Es : forall h s, map snd (outs (skewedsync_step (fd_depth_ss c)) s h) = map snd h).
  { clear. induction h as [|p h IH]; intros s; [reflexivity|]. rewrite outs_cons. cbn [map]. rewrite IH.
    destruct (skewed_step_eq (fd_depth_ss c) s p) as (c' & o1 & ->). reflexivity. }
  rewrite <- (Es h skewedsync_init). apply G.
Qed.

Lemma at_ones_overlapped l : Forall bitpair l -> Forall overlapped l -> ones (at_ones l) = ones (map fst l).
Proof.
  induction 1 as [|[a b] l [Ha Hb] Hl IH]; intros Ho; [reflexivity|]. inversion Ho as [|? ? Ho1 Ho2]; subst.
  unfold at_ones in *. cbn [filter map fst snd] in *. unfold overlapped in Ho1. cbn [fst snd] in Ho1.
  destruct Hb as [->| ->]; cbn [Z.eqb Pos.eqb map].
  - rewrite (IH Ho2). destruct Ha as [->| ->]; [reflexivity|]. specialize (Ho1 eq_refl). discriminate.
  - rewrite !ones_cons, (IH Ho2). reflexivity.
Qed.

Lemma cordiv_bits w rng h : index_seq w rng -> Forall bitpair h ->
  bits (outs (cordiv_tot (2 ^ w) rng) (cordiv_init (2 ^ w)) h).
Proof.
  intros Hr Hb. apply Forall_forall. intros x Hx. apply (In_nth _ _ 0) in Hx. destruct Hx as (k & Hk & <-).
  rewrite outs_length in Hk. rewrite (cordiv_out w rng h k (proj1 Hr) Hk).
  destruct (snd (nth k h (0, 0)) =? 1).
  - apply (Forall_nth_lt bitpair h k (0, 0) Hb Hk).
  - assert (B : bits (recent (2 ^ w) (at_ones (firstn k h)))).
    { apply recent_bits. unfold at_ones. apply Forall_forall. intros y Hy. apply in_map_iff in Hy.
      destruct Hy as (p & <- & Hp). apply filter_In in Hp. destruct Hp as [Hp _].
      pose proof (Forall_firstn _ k _ Hb) as Hf. rewrite Forall_forall in Hf. apply (Hf p Hp). }
    set (r := recent (2 ^ w) (at_ones (firstn k h))) in *.
    destruct (Nat.lt_ge_cases (Z.to_nat (cyc rng k)) (length r)) as [L|G].
    + apply (Forall_nth_lt bit); assumption.
    + rewrite nth_overflow by exact G. left; reflexivity.
Qed.

Lemma udiv_ratio c w h : fd_mode c = Unipolar -> fd_entry c = (2 ^ w)%nat -> index_seq w (fd_rng c) ->
  Forall bitpair h ->
  exists st o, run_r (fsudiv_step c) (fsudiv_init c) h = Ok (st, o) /\ bits o /\ length o = length h /\
    ones (at_ones (combine o (map snd h))) <= ones (map fst h) /\
    ((forall a b d, h = a ++ b ++ d -> excess b <= p2 (fd_depth_ss c) - 1) ->
     0 <= ones (map fst h) - ones (at_ones (combine o (map snd h))) <= p2 (fd_depth_ss c) - 1).
Proof.
  intros Hm He Hr Hb. destruct (fsudiv_uni_run c w h Hm He Hr) as (st & E).
  exists st, (udiv_out c h). split; [exact E|].
  pose proof (skewed_inv (fd_depth_ss c) h Hb) as (Hc & Hbo & Hs & Hcons). cbn zeta in *.
  split; [unfold udiv_out; rewrite He; apply (cordiv_bits w); assumption|].
  split; [unfold udiv_out; rewrite !outs_length; reflexivity|].
  rewrite (udiv_at_ones c w h He Hr).
  set (o := outs (skewedsync_step (fd_depth_ss c)) skewedsync_init h) in *.
  assert (Hle : ones (at_ones o) <= ones (map fst o)).
  { clear. unfold at_ones. induction o as [|[a b] o IH]; [cbn; lia|]. cbn [filter snd map fst].
    rewrite ones_cons. destruct (b =? 1); cbn [map fst]; [rewrite ones_cons|]; destruct (1 =? a); lia. }
  split; [lia|]. intros Hseg. apply (skewed_overlap (fd_depth_ss c) h Hb) in Hseg.
  rewrite (at_ones_overlapped o Hbo Hseg). lia.
Qed.

(** Equal streams. *)
Lemma skewed_equal depth xs :
  outs (skewedsync_step depth) skewedsync_init (combine xs xs) = combine xs xs.
Proof.
  unfold skewedsync_init. induction xs as [|x xs IH]; [reflexivity|].
  cbn [combine]. rewrite outs_cons.
  assert (E : skewedsync_step depth 0 (x, x) = (0, (x, x))).
  { unfold skewedsync_step. replace (x + x =? 1) with false by (symmetry; apply Z.eqb_neq; lia).
    change (b2z false) with 0. rewrite !Z.mul_0_l, !Z.add_0_r. f_equal. unfold zclamp. pose proof (p2_pos depth). lia. }
  rewrite E. cbn [fst snd]. f_equal. exact IH.
Qed.

Lemma at_ones_eq xs : bits xs -> at_ones (combine xs xs) = repeat 1 (Z.to_nat (ones xs)).
Proof.
  induction 1 as [|x l Hx Hl IH]; [reflexivity|]. unfold at_ones in *. cbn [combine filter snd].
  pose proof (ones_nonneg l). rewrite ones_cons. destruct Hx as [->| ->]; cbn [Z.eqb Pos.eqb map fst].
  - rewrite IH. f_equal.
  - rewrite IH. rewrite Z2Nat.inj_add by lia. reflexivity.
Qed.

Lemma nth_combine {A} (l : list A) k d : nth k (combine l l) (d, d) = (nth k l d, nth k l d).
Proof. revert k; induction l as [|x l IH]; intros [|k]; try reflexivity. cbn [combine nth]. apply IH. Qed.

Lemma udiv_self c w xs k : fd_entry c = (2 ^ w)%nat -> index_seq w (fd_rng c) -> bits xs -> (k < length xs)%nat ->
  nth k xs 0 = 1 \/ p2 w <= ones (firstn k xs) -> nth k (udiv_out c (combine xs xs)) 0 = 1.
Proof.
  intros He Hr Hb Hk Hc. unfold udiv_out. rewrite skewed_equal, He.
  rewrite (cordiv_out w _ _ k (proj1 Hr)) by (rewrite combine_length; lia).
  rewrite nth_combine. cbn [fst snd].
  destruct Hc as [E|E]; [rewrite E; reflexivity|].
  destruct (Z.eqb_spec (nth k xs 0) 1) as [E1|_]; [exact E1|].
  rewrite combine_firstn, at_ones_eq by (apply bits_firstn, Hb).
  set (m := Z.to_nat (ones (firstn k xs))).
  assert (Hm : (2 ^ w <= m)%nat) by (apply Nat2Z.inj_le; rewrite p2_nat; unfold m; lia).
  assert (Er : recent (2 ^ w) (repeat 1 m) = repeat 1 (2 ^ w)).
  { unfold recent, lastn. rewrite app_length, alternating_length, repeat_length.
    rewrite skipn_app, alternating_length. rewrite skipn_all2 by (rewrite alternating_length; lia). cbn [app].
    replace (2 ^ w + m - 2 ^ w - 2 ^ w)%nat with (m - 2 ^ w)%nat by lia.
    replace m with ((m - 2 ^ w) + 2 ^ w)%nat at 2 by lia. rewrite repeat_app, skipn_app, repeat_length, Nat.sub_diag.
    rewrite skipn_all2 by (rewrite repeat_length; lia). reflexivity. }
  rewrite Er.
  assert (Hin : In (nth (Z.to_nat (cyc (fd_rng c) k)) (repeat 1 (2 ^ w)) 0) (repeat 1 (2 ^ w))).
  { apply nth_In. rewrite repeat_length. destruct Hr as [Hl Hf]. apply Nat2Z.inj_lt. rewrite p2_nat.
    assert (0 <= cyc (fd_rng c) k < p2 w).
    { unfold cyc. apply (Forall_nth_lt (fun r => 0 <= r < p2 w)); [exact Hf|]. apply Nat.mod_upper_bound.
      rewrite Hl. pose proof (pow2_ge1 w). lia. }
    lia. }
  apply repeat_spec in Hin. exact Hin.
Qed.

(** ** FSUDiv, bipolar *)
Definition fsudiv_tot_b (c : fsudiv_cfg) (st : fsudiv_st) (p : Z * Z) : fsudiv_st * Z :=
  let a1 := fsusignabs_step (fd_depth_sa c) (fd_sa1 st) (fst p) in
  let a2 := fsusignabs_step (fd_depth_sa c) (fd_sa2 st) (snd p) in
  let b1 := bi2uni_step 1 (fd_b2u1 st) (snd (snd a1)) in
  let b2 := bi2uni_step 1 (fd_b2u2 st) (snd (snd a2)) in
  let r := udiv_tot c (fd_ss st, fd_kn st) (snd b1, snd b2) in
  let u := uni2bi_step 2 (fd_u2b st) (snd r) in
  ({| fd_sa1 := fst a1; fd_sa2 := fst a2; fd_b2u1 := fst b1; fd_b2u2 := fst b2;
      fd_u2b := fst u; fd_ss := fst (fst r); fd_kn := snd (fst r) |},
   Z.lxor (Z.lxor (fst (snd a1)) (fst (snd a2))) (snd u)).

Definition sgnabs (c : fsudiv_cfg) (xs : list Z) := outs (fsusignabs_step (fd_depth_sa c)) (fsusignabs_init (fd_depth_sa c)) xs.
Definition magnitude (c : fsudiv_cfg) (xs : list Z) := outs (bi2uni_step 1) bi2uni_init (map snd (sgnabs c xs)).

Definition bdiv_out (c : fsudiv_cfg) (h : list (Z * Z)) : list Z :=
  let xs := map fst h in
  let ys := map snd h in
  let q := udiv_out c (combine (magnitude c xs) (magnitude c ys)) in
  map2 Z.lxor (map2 Z.lxor (map fst (sgnabs c xs)) (map fst (sgnabs c ys))) (outs (uni2bi_step 2) uni2bi_init q).

Lemma fsudiv_bi_outs c h : forall st,
  outs (fsudiv_tot_b c) st h =
  let sa1 := outs (fsusignabs_step (fd_depth_sa c)) (fd_sa1 st) (map fst h) in
  let sa2 := outs (fsusignabs_step (fd_depth_sa c)) (fd_sa2 st) (map snd h) in
  let m1 := outs (bi2uni_step 1) (fd_b2u1 st) (map snd sa1) in
  let m2 := outs (bi2uni_step 1) (fd_b2u2 st) (map snd sa2) in
  let q := outs (udiv_tot c) (fd_ss st, fd_kn st) (combine m1 m2) in
  map2 Z.lxor (map2 Z.lxor (map fst sa1) (map fst sa2)) (outs (uni2bi_step 2) (fd_u2b st) q).
Proof.
  induction h as [|[x y] h IH]; intros st; [reflexivity|]. cbn zeta in *.
  rewrite outs_cons, IH. unfold fsudiv_tot_b.
  cbn [fst snd fd_sa1 fd_sa2 fd_b2u1 fd_b2u2 fd_u2b fd_ss fd_kn map].
  rewrite !outs_cons. cbn [map]. rewrite !outs_cons. cbn [combine]. rewrite !outs_cons. cbn [map2].
  rewrite <- surjective_pairing. reflexivity.
Qed.

Lemma fsudiv_bi_run c w h : fd_mode c = Bipolar -> fd_entry c = (2 ^ w)%nat -> index_seq w (fd_rng c) ->
  exists st, run_r (fsudiv_step c) (fsudiv_init c) h = Ok (st, bdiv_out c h).
Proof.
  intros Hm He Hr.
  destruct (run_r_total (fsudiv_step c) (fsudiv_tot_b c) (fun st => 0 <= cd_idx (fd_kn st)) (fun _ => True)) with (xs := h) (s := fsudiv_init c) as [E _].
  - intros s [a b] Hs _. split.
    + unfold fsudiv_step, fsudiv_tot_b. rewrite Hm. cbn [fst snd].
      destruct (fsusignabs_step (fd_depth_sa c) (fd_sa1 s) a) as [a1 [s1 o1]].
      destruct (fsusignabs_step (fd_depth_sa c) (fd_sa2 s) b) as [a2 [s2 o2]]. cbn [fst snd].
      destruct (bi2uni_step 1 (fd_b2u1 s) o1) as [b1 u1]. destruct (bi2uni_step 1 (fd_b2u2 s) o2) as [b2 u2]. cbn [fst snd].
      rewrite (udiv_ok c w _ _ u1 u2 He Hr Hs).
      destruct (udiv_tot c (fd_ss s, fd_kn s) (u1, u2)) as [[ss' kn'] q]. cbn [fst snd].
      destruct (uni2bi_step 2 (fd_u2b s) q) as [u' bq]. reflexivity.
    + unfold fsudiv_tot_b. cbn [fst fd_kn]. unfold udiv_tot. cbn [fst snd].
      destruct (snd (skewedsync_step (fd_depth_ss c) _ _)). cbn. lia.
  - cbn. lia.
  - apply Forall_forall. intros; exact I.
  - eexists. rewrite E. f_equal. rewrite (surjective_pairing (run _ _ _)). f_equal.
    change (snd (run (fsudiv_tot_b c) (fsudiv_init c) h)) with (outs (fsudiv_tot_b c) (fsudiv_init c) h).
    rewrite fsudiv_bi_outs. cbn zeta. unfold bdiv_out, magnitude, sgnabs. f_equal.
    unfold outs at 2. rewrite udiv_tot_run. reflexivity.
Qed.

Lemma uni2bi_inv2 q : bits q -> 0 <= final (uni2bi_step 2) uni2bi_init q <= 1.
Proof.
  induction q as [|x q IH] using rev_ind; intros Hb; [cbn; unfold uni2bi_init; lia|].
  apply bits_snoc in Hb. destruct Hb as [Hb Hx]. specialize (IH Hb). rewrite final_snoc.
  set (s := final _ _ q) in *. clearbody s. unfold uni2bi_step, zclamp. cbn [fst zsum]. change (p2 2) with 4.
  destruct Hx as [->| ->]; destruct (_ >=? 2) eqn:E; cbn [b2z]; lia.
Qed.

Lemma uni2bi_one q k : bits q -> (k < length q)%nat -> nth k q 0 = 1 ->
  nth k (outs (uni2bi_step 2) uni2bi_init q) 0 = 1.
Proof.
  intros Hb Hk E. rewrite (outs_nth _ _ _ _ 0 _ Hk), E.
  pose proof (uni2bi_inv2 (firstn k q) (bits_firstn _ _ Hb)) as Hs.
  set (s := final _ _ _) in *. clearbody s. unfold uni2bi_step, zclamp. cbn [snd zsum]. change (p2 2) with 4.
  destruct (_ >=? 2) eqn:E2; [reflexivity|]. exfalso. lia.
Qed.

Lemma map2_nth {A B C} (f : A -> B -> C) xs ys k da db dc : length xs = length ys -> (k < length xs)%nat ->
  nth k (map2 f xs ys) dc = f (nth k xs da) (nth k ys db).
Proof.
  revert ys k; induction xs as [|x xs IH]; intros [|y ys] [|k] L Hk; cbn [length] in *; try lia; [reflexivity|].
  cbn [map2 nth]. apply IH; lia.
Qed.

Lemma nth_map_fst (l : list (Z * Z)) k : nth k (map fst l) 0 = fst (nth k l (0, 0)).
Proof. exact (map_nth fst l (0, 0) k). Qed.
Lemma nth_map_snd (l : list (Z * Z)) k : nth k (map snd l) 0 = snd (nth k l (0, 0)).
Proof. exact (map_nth snd l (0, 0) k). Qed.

Lemma sgnabs_length c xs : length (sgnabs c xs) = length xs.
Proof. apply outs_length. Qed.
Lemma magnitude_length c xs : length (magnitude c xs) = length xs.
Proof. unfold magnitude. rewrite outs_length, map_length. apply sgnabs_length. Qed.
Lemma udiv_out_length c h : length (udiv_out c h) = length h.
Proof. unfold udiv_out. rewrite !outs_length. reflexivity. Qed.

Lemma sgnabs_bits c xs : bits xs -> bits (map fst (sgnabs c xs)) /\ bits (map snd (sgnabs c xs)).
Proof.
  intros Hb. pose proof (signabs_all (fd_depth_sa c) xs Hb) as [H _]. fold (sgnabs c xs) in H.
  split; apply Forall_forall; intros x Hx; apply in_map_iff in Hx; destruct Hx as (p & <- & Hp);
    apply (In_nth _ _ (0, 0)) in Hp; destruct Hp as (k & Hk & <-); rewrite sgnabs_length in Hk;
    destruct (H k Hk) as (B1 & B2 & _); assumption.
Qed.

Lemma magnitude_bits c xs : bits xs -> bits (magnitude c xs).
Proof. intros Hb. apply (bi2uni_inv 1 _ (proj2 (sgnabs_bits c xs Hb))). Qed.

Lemma bitpair_combine xs ys : bits xs -> bits ys -> Forall bitpair (combine xs ys).
Proof.
  intros Hx Hy. apply Forall_forall. intros [a b] H. unfold bits in *. rewrite Forall_forall in Hx, Hy.
  split; [apply Hx, (in_combine_l _ _ _ _ H)|apply Hy, (in_combine_r _ _ _ _ H)].
Qed.

Lemma udiv_bits c w h : fd_entry c = (2 ^ w)%nat -> index_seq w (fd_rng c) -> Forall bitpair h -> bits (udiv_out c h).
Proof.
  intros He Hr Hb. unfold udiv_out. rewrite He. apply cordiv_bits; [exact Hr|].
  apply (skewed_inv (fd_depth_ss c) h Hb).
Qed.

Lemma uni2bi_bits q : bits q -> bits (outs (uni2bi_step 2) uni2bi_init q).
Proof. intros H. apply (uni2bi_full 2 q); [lia|exact H]. Qed.

Lemma outs_firstn_all {S I O} (step : S -> I -> S * O) s xs k : outs step s (firstn k xs) = firstn k (outs step s xs).
Proof.
  revert s k; induction xs as [|x xs IH]; intros s [|k]; try reflexivity.
  cbn [firstn]. rewrite !outs_cons. cbn [firstn]. rewrite IH. reflexivity.
Qed.

Theorem bdiv_structure : forall c w h, fd_mode c = Bipolar -> fd_entry c = (2 ^ w)%nat -> index_seq w (fd_rng c) ->
  Forall bitpair h ->
  exists st o q, run_r (fsudiv_step c) (fsudiv_init c) h = Ok (st, o) /\ bits o /\ length o = length h /\
    let sa1 := outs (fsusignabs_step (fd_depth_sa c)) (fsusignabs_init (fd_depth_sa c)) (map fst h) in
    let sa2 := outs (fsusignabs_step (fd_depth_sa c)) (fsusignabs_init (fd_depth_sa c)) (map snd h) in
    let m1 := outs (bi2uni_step 1) bi2uni_init (map snd sa1) in
    let m2 := outs (bi2uni_step 1) bi2uni_init (map snd sa2) in
    let cu := {| fd_mode := Unipolar; fd_depth_sa := fd_depth_sa c; fd_depth_ss := fd_depth_ss c;
                 fd_entry := fd_entry c; fd_rng := fd_rng c |} in
    (exists stu, run_r (fsudiv_step cu) (fsudiv_init cu) (combine m1 m2) = Ok (stu, q)) /\
    forall k, (k < length h)%nat ->
      let b := nth k (outs (uni2bi_step 2) uni2bi_init q) 0 in
      nth k o 0 = if fst (nth k sa1 (0, 0)) =? fst (nth k sa2 (0, 0)) then b else 1 - b.
Proof.
  intros c w h Hm He Hr Hb. destruct (fsudiv_bi_run c w h Hm He Hr) as (st & E).
  assert (B1 : bits (map fst h)).
  { apply Forall_forall. intros x Hx. apply in_map_iff in Hx. destruct Hx as (p & <- & Hp).
    rewrite Forall_forall in Hb. apply (Hb p Hp). }
  assert (B2 : bits (map snd h)).
  { apply Forall_forall. intros x Hx. apply in_map_iff in Hx. destruct Hx as (p & <- & Hp).
    rewrite Forall_forall in Hb. apply (Hb p Hp). }
  set (q := udiv_out c (combine (magnitude c (map fst h)) (magnitude c (map snd h)))).
  assert (Lq : length q = length h).
  { unfold q. rewrite udiv_out_length, combine_length, !magnitude_length, !map_length. lia. }
  assert (Bq : bits q).
  { apply (udiv_bits c w); try assumption. apply bitpair_combine; apply magnitude_bits; assumption. }
  assert (L : forall k, (k < length h)%nat -> nth k (bdiv_out c h) 0 =
    Z.lxor (Z.lxor (fst (nth k (sgnabs c (map fst h)) (0, 0))) (fst (nth k (sgnabs c (map snd h)) (0, 0))))
           (nth k (outs (uni2bi_step 2) uni2bi_init q) 0)).
  { intros k Hk. unfold bdiv_out. fold q.
    assert (L1 : length (map fst (sgnabs c (map fst h))) = length h) by (rewrite map_length, sgnabs_length, map_length; reflexivity).
    assert (L2 : length (map fst (sgnabs c (map snd h))) = length h) by (rewrite map_length, sgnabs_length, map_length; reflexivity).
    rewrite (map2_nth Z.lxor _ _ k 0 0 0); [|rewrite map2_length, outs_length; congruence|rewrite map2_length; congruence].
    rewrite (map2_nth Z.lxor _ _ k 0 0 0); [|congruence|congruence].
    rewrite !nth_map_fst. reflexivity. }
  assert (S1 := sgnabs_bits c _ B1). assert (S2 := sgnabs_bits c _ B2).
  assert (Bu := uni2bi_bits q Bq).
  assert (Lo : length (bdiv_out c h) = length h).
  { unfold bdiv_out. fold q.
    assert (L1 : length (map fst (sgnabs c (map fst h))) = length h) by (rewrite map_length, sgnabs_length, map_length; reflexivity).
    assert (L2 : length (map fst (sgnabs c (map snd h))) = length h) by (rewrite map_length, sgnabs_length, map_length; reflexivity).
    rewrite map2_length; rewrite map2_length; rewrite ?outs_length; congruence. }
  assert (V : forall k, (k < length h)%nat ->
      let b := nth k (outs (uni2bi_step 2) uni2bi_init q) 0 in bit b /\
      nth k (bdiv_out c h) 0 = if fst (nth k (sgnabs c (map fst h)) (0, 0)) =? fst (nth k (sgnabs c (map snd h)) (0, 0)) then b else 1 - b).
  { intros k Hk. cbn zeta. rewrite (L k Hk). rewrite <- !nth_map_fst.
    assert (H1 : bit (nth k (map fst (sgnabs c (map fst h))) 0)).
    { apply (Forall_nth_lt bit); [apply S1|]. rewrite map_length, sgnabs_length, map_length. exact Hk. }
    assert (H2 : bit (nth k (map fst (sgnabs c (map snd h))) 0)).
    { apply (Forall_nth_lt bit); [apply S2|]. rewrite map_length, sgnabs_length, map_length. exact Hk. }
    assert (H3 : bit (nth k (outs (uni2bi_step 2) uni2bi_init q) 0)).
    { apply (Forall_nth_lt bit); [exact Bu|]. rewrite outs_length. lia. }
    split; [exact H3|].
    destruct H1 as [->| ->], H2 as [->| ->], H3 as [->| ->]; reflexivity. }
  exists st, (bdiv_out c h), q. split; [exact E|].
  split.
  { apply Forall_forall. intros x Hx. apply (In_nth _ _ 0) in Hx. destruct Hx as (k & Hk & <-).
    destruct (V k ltac:(lia)) as [H3 ->]. destruct (_ =? _); [exact H3|]. destruct H3 as [->| ->]; unfold bit; lia. }
  split; [exact Lo|]. cbn zeta. split.
  - apply (fsudiv_uni_run {| fd_mode := Unipolar; fd_depth_sa := fd_depth_sa c; fd_depth_ss := fd_depth_ss c;
                 fd_entry := fd_entry c; fd_rng := fd_rng c |} w); [reflexivity|exact He|exact Hr].
  - intros k Hk. apply (V k Hk).
Qed.

(** Division of a stream by itself. *)
Theorem bdiv_self : forall c w xs, fd_mode c = Bipolar -> fd_entry c = (2 ^ w)%nat -> index_seq w (fd_rng c) ->
  bits xs ->
  exists st o, run_r (fsudiv_step c) (fsudiv_init c) (combine xs xs) = Ok (st, o) /\ length o = length xs /\
    forall k, (k < length xs)%nat ->
      p2 w <= max_over_prefixes walk (map snd (outs (fsusignabs_step (fd_depth_sa c)) (fsusignabs_init (fd_depth_sa c)) (firstn k xs))) ->
      nth k o 0 = 1.
Proof.
  intros c w xs Hm He Hr Hb.
  destruct (bdiv_structure c w (combine xs xs) Hm He Hr (bitpair_combine _ _ Hb Hb)) as (st & o & q & E & Bo & Lo & (stu & Eq) & V).
  exists st, o. split; [exact E|].
  assert (Lc : length (combine xs xs) = length xs) by (rewrite combine_length; lia).
  split; [congruence|]. intros k Hk Hmax. cbn zeta in *.
  specialize (V k ltac:(lia)).
  assert (M1 : map fst (combine xs xs) = xs).
  { clear. induction xs; [reflexivity|]. cbn [combine map fst]. congruence. }
  assert (M2 : map snd (combine xs xs) = xs).
  { clear. induction xs; [reflexivity|]. cbn [combine map snd]. congruence. }
  rewrite M1, M2 in *. rewrite Z.eqb_refl in V. rewrite V.
  set (cu := {| fd_mode := Unipolar; fd_depth_sa := fd_depth_sa c; fd_depth_ss := fd_depth_ss c;
                 fd_entry := fd_entry c; fd_rng := fd_rng c |}) in *.
  fold (sgnabs c xs) in Eq. fold (magnitude c xs) in Eq.
  destruct (fsudiv_uni_run cu w (combine (magnitude c xs) (magnitude c xs)) eq_refl He Hr) as (stu' & Eu).
  assert (Q : q = udiv_out cu (combine (magnitude c xs) (magnitude c xs))) by congruence.
  apply uni2bi_one.
  - rewrite Q. apply (udiv_bits cu w); [exact He|exact Hr|]. apply bitpair_combine; apply magnitude_bits, Hb.
  - rewrite Q, udiv_out_length, combine_length, magnitude_length. lia.
  - rewrite Q. apply (udiv_self cu w); [exact He|exact Hr|apply magnitude_bits, Hb|rewrite magnitude_length; exact Hk|].
    right. unfold magnitude. rewrite <- outs_firstn_all, firstn_map. unfold sgnabs. rewrite <- outs_firstn_all.
    eapply Z.le_trans; [exact Hmax|]. apply bi2uni_ge_max. apply (sgnabs_bits c). apply bits_firstn, Hb.
Qed.

(** ** FSUSqrt, trace modes *)
Definition trace_out (st : sqrt_trace_st) (x : Z) : Z := Z.land (1 - st_trace st) x + st_trace st.

Lemma trace_out_bit t x : bit t -> bit x -> Z.land (1 - t) x + t = Z.max x t.
Proof. intros [->| ->] [->| ->]; reflexivity. Qed.

Definition trace_tot (m : mode) (jk : bool) (rng : list Z) (st : sqrt_trace_st) (x : Z) : sqrt_trace_st * Z :=
  match sqrt_trace_step m jk rng st x with Ok r => r | Err _ => (st, 0) end.

Definition trace_inv (st : sqrt_trace_st) : Prop :=
  bit (st_trace st) /\ - p2 1 <= st_b2u st <= 0 /\ bit (st_jk st) /\ bit (st_dff st) /\
  0 <= cd_idx (st_kn st) /\ bits (cd_sr (st_kn st)).

Lemma cordiv_tot_bits rng st a b : bits (cd_sr st) -> bit a -> bit b ->
  bits (cd_sr (fst (cordiv_tot 4 rng st (a, b)))) /\ bit (snd (cordiv_tot 4 rng st (a, b))).
Proof.
  intros Hs Ha Hb. unfold cordiv_tot. cbn [fst snd cd_sr].
  set (h := nthZ (cd_sr st) _).
  assert (Hh : bit h).
  { unfold h, nthZ. set (i := Z.to_nat _). destruct (Nat.lt_ge_cases i (length (cd_sr st))) as [L|G].
    - apply (Forall_nth_lt bit); assumption.
    - rewrite nth_overflow by exact G. left; reflexivity. }
  set (e := b2z (b =? 1)). assert (He : bit e) by apply bit_b2z.
  assert (Hq : bit (e * a + (1 - e) * h)).
  { destruct He as [->| ->]; [replace (0 * a + (1 - 0) * h) with h by lia; exact Hh|replace (1 * a + (1 - 1) * h) with a by lia; exact Ha]. }
  split; [|exact Hq]. unfold shiftreg_step. cbn [fst].
  destruct (cd_sr st) as [|y r] eqn:E; [constructor|].
  rewrite roll_set by discriminate. rewrite map2_mask by (cbn [tl length]; rewrite app_length; cbn [length]; lia).
  destruct He as [->| ->]; cbn [Z.eqb Pos.eqb]; [exact Hs|].
  cbn [tl]. apply bits_app; [inversion Hs; assumption|]. constructor; [exact Hq|constructor].
Qed.

Lemma utrace_ok jk rng st o : index_seq 2 rng -> bit o -> bit (st_jk st) -> bit (st_dff st) ->
  0 <= cd_idx (st_kn st) -> bits (cd_sr (st_kn st)) ->
  exists st', sqrt_unipolar_trace jk rng st o = Ok st' /\ bit (st_trace st') /\ st_b2u st' = st_b2u st /\
    bit (st_jk st') /\ bit (st_dff st') /\ 0 <= cd_idx (st_kn st') /\ bits (cd_sr (st_kn st')).
Proof.
  intros Hr Ho Hj Hd Hi Hs. unfold sqrt_unipolar_trace. destruct jk.
  - pose proof (jkff_bit (st_jk st) (o, 1) Hj) as [B1 B2].
    destruct (jkff_step (st_jk st) (o, 1)) as [j' t]. cbn [fst snd] in *. subst t.
    eexists; split; [reflexivity|]. cbn [st_trace st_b2u st_jk st_dff st_kn]. tauto.
  - set (a := Z.land (1 - st_dff st) o). set (b := st_dff st + a).
    assert (Ha : bit a /\ bit b).
    { unfold b, a. destruct Hd as [->| ->], Ho as [->| ->]; cbv; tauto. }
    change 4%nat with (2 ^ 2)%nat. rewrite (cordiv_ok 2 rng (st_kn st) (a, b) Hr Hi). change (2 ^ 2)%nat with 4%nat.
    pose proof (cordiv_tot_bits rng (st_kn st) a b Hs (proj1 Ha) (proj2 Ha)) as [B1 B2].
    assert (B3 : 0 <= cd_idx (fst (cordiv_tot 4 rng (st_kn st) (a, b)))) by (unfold cordiv_tot; cbn [fst cd_idx]; lia).
    destruct (cordiv_tot 4 rng (st_kn st) (a, b)) as [kn' t]. cbn [fst snd] in *.
    eexists; split; [reflexivity|]. cbn [st_trace st_b2u st_jk st_dff st_kn].
    split; [exact B2|]. split; [reflexivity|]. split; [exact Hj|]. split; [destruct Hd as [->| ->]; cbv; tauto|]. tauto.
Qed.

Lemma trace_step_ok m jk rng st x : index_seq 2 rng -> trace_inv st -> bit x ->
  sqrt_trace_step m jk rng st x = Ok (trace_tot m jk rng st x) /\ trace_inv (fst (trace_tot m jk rng st x)) /\
  snd (trace_tot m jk rng st x) = Z.max x (st_trace st).
Proof.
  intros Hr (I1 & I2 & I3 & I4 & I5 & I6) Hx.
  assert (G : exists st', sqrt_trace_step m jk rng st x = Ok (st', Z.max x (st_trace st)) /\ trace_inv st').
  { unfold sqrt_trace_step. rewrite (trace_out_bit _ x I1 Hx).
    set (o := Z.max x (st_trace st)).
    assert (Ho : bit o) by (unfold o; destruct I1 as [->| ->], Hx as [->| ->]; cbv; tauto).
    destruct m.
    - destruct (utrace_ok jk rng st o Hr Ho I3 I4 I5 I6) as (st' & E & T1 & T2 & T3 & T4 & T5 & T6).
      rewrite E. exists st'. split; [reflexivity|]. unfold trace_inv. rewrite T2. tauto.
    - destruct (bi2uni_step 1 (st_b2u st) o) as [b' out] eqn:Eb.
      destruct (bi2uni_step_facts 1 (st_b2u st) o b' out Ho I2 Eb) as (F1 & F2 & _ & _).
      match goal with |- context [sqrt_unipolar_trace jk rng ?s out] => set (s1 := s) end.
      destruct (utrace_ok jk rng s1 out Hr F2 I3 I4 I5 I6) as (st' & E & T1 & T2 & T3 & T4 & T5 & T6).
      rewrite E. exists st'. split; [reflexivity|]. unfold trace_inv. rewrite T2. tauto. }
  destruct G as (st' & E & H). unfold trace_tot. rewrite E. cbn [fst snd]. tauto.
Qed.

Lemma trace_init_inv : trace_inv sqrt_trace_init.
Proof.
  unfold trace_inv, sqrt_trace_init, cordiv_init. cbn [st_trace st_b2u st_jk st_dff st_kn cd_idx cd_sr].
  rewrite shiftreg_init_alt. pose proof (alternating_bits 4). unfold bit, bi2uni_init, jkff_init. change (p2 1) with 2.
  repeat (split; [lia|]). assumption.
Qed.

Theorem sqrt_trace_total : forall m jk rng xs, index_seq 2 rng -> bits xs ->
  exists st o, run_r (sqrt_trace_step m jk rng) sqrt_trace_init xs = Ok (st, o) /\
    bits o /\ Forall2 (fun x y => x <= y) xs o.
Proof.
  intros m jk rng xs Hr Hb.
  assert (G : forall xs st, bits xs -> trace_inv st -> exists st' o, run_r (sqrt_trace_step m jk rng) st xs = Ok (st', o) /\
    bits o /\ Forall2 (fun x y => x <= y) xs o).
  { clear xs Hb. induction xs as [|x xs IH]; intros st Hb Hi.
    - exists st, []. split; [reflexivity|]. split; constructor.
    - inversion Hb as [|? ? Hx Hxs]; subst. destruct (trace_step_ok m jk rng st x Hr Hi Hx) as (E & Hi' & Ho).
      cbn [run_r]. rewrite E. destruct (trace_tot m jk rng st x) as [st1 o1]. cbn [fst snd] in *.
      destruct (IH st1 Hxs Hi') as (st2 & os & E2 & B & F). rewrite E2. exists st2, (o1 :: os).
      split; [reflexivity|]. destruct Hi as (I1 & _). split; (constructor; [|assumption]).
      + rewrite Ho. destruct I1 as [->| ->], Hx as [->| ->]; cbv; tauto.
      + lia. }
  apply (G xs sqrt_trace_init Hb trace_init_inv).
Qed.

(** JK trace, unipolar. *)
Lemma trace_jk_parse rng : forall xs st, bits xs -> st_trace st = st_jk st -> bit (st_jk st) ->
  exists st', run_r (sqrt_trace_step Unipolar true rng) st xs =
    Ok (st', if st_trace st =? 0 then insert_ones xs
             else match xs with [] => [] | _ :: r => 1 :: insert_ones r end).
Proof.
  induction xs as [|x xs IH]; intros st Hb Et Hj.
  - exists st. cbn [run_r insert_ones]. destruct (_ =? 0); reflexivity.
  - inversion Hb as [|? ? Hx Hxs]; subst. cbn [run_r].
    unfold sqrt_trace_step at 1. unfold sqrt_unipolar_trace. rewrite trace_out_bit by (rewrite ?Et; assumption).
    destruct (jkff_step (st_jk st) (Z.max x (st_trace st), 1)) as [j t] eqn:Ej. cbn [insert_ones].
    set (st1 := {| st_trace := t; st_b2u := st_b2u st; st_jk := j; st_kn := st_kn st; st_dff := st_dff st |}).
    assert (F : j = t /\ bit j /\ (st_jk st = 1 -> t = 0) /\ (st_jk st = 0 -> t = x)).
    { pose proof (f_equal fst Ej) as E1. pose proof (f_equal snd Ej) as E2. cbn [fst snd] in E1, E2. rewrite Et in *.
      destruct Hj as [Hj|Hj]; rewrite Hj in *; destruct Hx as [->| ->]; cbv in E1, E2; subst j t; cbv;
        repeat split; try tauto; try discriminate. }
    destruct F as (F1 & F2 & F3 & F4). subst t.
    destruct (IH st1 Hxs eq_refl F2) as (st2 & E2). rewrite E2. exists st2. do 2 f_equal. cbn [st_trace st1].
    rewrite Et. destruct Hj as [Hj|Hj]; rewrite Hj.
    + rewrite (F4 Hj). destruct Hx as [->| ->]; cbn [Z.eqb]; [reflexivity|]. change (Z.max 1 0) with 1. f_equal.
    + rewrite (F3 Hj). destruct Hx as [->| ->]; reflexivity.
Qed.

Lemma sqrt_trace_jk rng xs : bits xs ->
  exists st, run_r (sqrt_trace_step Unipolar true rng) sqrt_trace_init xs = Ok (st, insert_ones xs).
Proof.
  intros Hb. destruct (trace_jk_parse rng xs sqrt_trace_init Hb eq_refl) as (st & E); [left; reflexivity|].
  exists st. rewrite E. reflexivity.
Qed.

(** CORDIV trace, unipolar. *)
Lemma trace_cordiv_step rng st x past k : index_seq 2 rng -> bit x -> bit (st_trace st) -> bit (st_dff st) ->
  cd_sr (st_kn st) = recent 4 past -> cd_idx (st_kn st) = Z.of_nat k ->
  let o := Z.max x (st_trace st) in
  exists kn', sqrt_trace_step Unipolar false rng st x =
    Ok ({| st_trace := if st_dff st =? 1 then 0 else if o =? 1 then 1 else nth (Z.to_nat (cyc rng k)) (recent 4 past) 0;
           st_b2u := st_b2u st; st_jk := st_jk st; st_kn := kn'; st_dff := 1 - st_dff st |}, o) /\
    cd_sr kn' = recent 4 (past ++ if st_dff st =? 1 then [0] else if o =? 1 then [1] else []) /\
    cd_idx kn' = Z.of_nat (k + 1).
Proof.
  intros Hr Hx Ht Hd Hs Hi o. unfold sqrt_trace_step, sqrt_unipolar_trace. rewrite (trace_out_bit _ x Ht Hx). fold o.
  assert (Ho : bit o) by (unfold o; destruct Ht as [->| ->], Hx as [->| ->]; cbv; tauto).
  set (a := Z.land (1 - st_dff st) o). set (b := st_dff st + a).
  pose proof (cordiv_ok 2 rng (st_kn st) (a, b) Hr ltac:(lia)) as Ec.
  change (cordiv_step 4 rng (st_kn st) (a, b)) with (cordiv_step (2 ^ 2) rng (st_kn st) (a, b)). rewrite Ec.
  exists (fst (cordiv_tot (2 ^ 2) rng (st_kn st) (a, b))).
  assert (E : snd (cordiv_tot (2 ^ 2) rng (st_kn st) (a, b)) =
    (if st_dff st =? 1 then 0 else if o =? 1 then 1 else nth (Z.to_nat (cyc rng k)) (recent 4 past) 0) /\
    cd_sr (fst (cordiv_tot (2 ^ 2) rng (st_kn st) (a, b))) =
      recent 4 (past ++ if st_dff st =? 1 then [0] else if o =? 1 then [1] else [])).
  { unfold cordiv_tot. cbn [fst snd cd_sr]. rewrite Hs.
    change (2 ^ 2)%nat with 4%nat. rewrite shift_masked by (try lia; apply bit_b2z).
    rewrite Hi. change (Z.of_nat 4) with (p2 2). rewrite (nthZ_mod_cyc 2 rng _ (proj1 Hr)) by lia. rewrite Nat2Z.id.
    change (nthZ (recent 4 past) (cyc rng k)) with (nth (Z.to_nat (cyc rng k)) (recent 4 past) 0).
    set (v := nth (Z.to_nat (cyc rng k)) (recent 4 past) 0). clearbody v.
    unfold b, a. destruct Hd as [->| ->], Ho as [->| ->]; split; try reflexivity.
    change (Z.land (1 - 0) 0) with 0. change (b2z (0 + 0 =? 1)) with 0. cbn [Z.eqb]. lia. }
  destruct E as [E1 E2]. split; [|split; [exact E2|unfold cordiv_tot; cbn [fst cd_idx]; lia]].
  rewrite (surjective_pairing (cordiv_tot (2 ^ 2) rng (st_kn st) (a, b))) at 1. rewrite E1. reflexivity.
Qed.

Lemma recent_bit n past i : bits past -> bit (nth i (recent n past) 0).
Proof.
  intros H. destruct (Nat.lt_ge_cases i (length (recent n past))) as [L|G].
  - apply (Forall_nth_lt bit); [apply recent_bits, H|exact L].
  - rewrite nth_overflow by exact G. left; reflexivity.
Qed.

Lemma trace_cordiv_parse rng : index_seq 2 rng -> forall n xs, (length xs <= n)%nat -> forall st past k,
  bits xs -> bits past -> st_trace st = 0 -> st_dff st = 0 ->
  cd_sr (st_kn st) = recent 4 past -> cd_idx (st_kn st) = Z.of_nat k ->
  exists st', run_r (sqrt_trace_step Unipolar false rng) st xs = Ok (st', insert_quotients rng past k xs).
Proof.
  intros Hr. induction n as [|n IH]; intros xs L st past k Hb Hp Ht Hd Hs Hi.
  { destruct xs; [|cbn in L; lia]. exists st. reflexivity. }
  destruct xs as [|a [|b r]].
  - exists st. reflexivity.
  - inversion Hb as [|? ? Ha _]; subst.
    destruct (trace_cordiv_step rng st a past k Hr Ha ltac:(rewrite Ht; left; reflexivity) ltac:(rewrite Hd; left; reflexivity) Hs Hi) as (kn & E & _).
    cbn [run_r]. rewrite E. rewrite Ht. eexists. cbn [insert_quotients]. replace (Z.max a 0) with a by (destruct Ha; lia). reflexivity.
  - inversion Hb as [|? ? Ha Hb']; subst. inversion Hb' as [|? ? Hbb Hr']; subst.
    destruct (trace_cordiv_step rng st a past k Hr Ha ltac:(rewrite Ht; left; reflexivity) ltac:(rewrite Hd; left; reflexivity) Hs Hi) as (kn & E & E1 & E2).
    cbn [run_r]. rewrite E. rewrite Hd in *. rewrite Ht in *. replace (Z.max a 0) with a in * by (destruct Ha; lia).
    change (0 =? 1) with false in *. cbv iota in *. change (1 - 0) with 1.
    set (v := nth (Z.to_nat (cyc rng k)) (recent 4 past) 0) in *.
    assert (Hv : bit v) by (apply recent_bit, Hp).
    set (st1 := {| st_trace := if a =? 1 then 1 else v; st_b2u := st_b2u st; st_jk := st_jk st; st_kn := kn; st_dff := 1 |}).
    assert (Ht1 : bit (st_trace st1)).
    { cbn [st1 st_trace]. destruct (a =? 1); [right; reflexivity|exact Hv]. }
    destruct (trace_cordiv_step rng st1 b _ (k + 1)%nat Hr Hbb Ht1 ltac:(right; reflexivity) E1 E2) as (kn2 & E' & E1' & E2').
    rewrite E'. change (st_dff st1 =? 1) with true in *. cbv iota in *. change (1 - st_dff st1) with 0.
    match goal with |- context [run_r _ ?s r] => set (st2 := s) end.
    set (past' := (past ++ (if a =? 1 then [1] else [])) ++ [0]) in *.
    assert (Hp' : bits past').
    { unfold past'. apply bits_app; [apply bits_app; [exact Hp|]|]; [destruct (a =? 1)|]; repeat constructor; unfold bit; lia. }
    cbn [length] in L.
    destruct (IH r ltac:(lia) st2 past' (k + 1 + 1)%nat Hr' Hp' eq_refl eq_refl E1' E2') as (st' & ER).
    rewrite ER. exists st'. cbn [insert_quotients]. fold v.
    replace (k + 1 + 1)%nat with (k + 2)%nat by lia.
    replace past' with (past ++ (if a =? 1 then [1; 0] else [0])).
    2:{ unfold past'. rewrite <- app_assoc. destruct (a =? 1); reflexivity. }
    do 2 f_equal. f_equal. f_equal. cbn [st1 st_trace]. destruct (a =? 1); [|reflexivity]. destruct Hbb as [->| ->]; reflexivity.
Qed.

Lemma sqrt_trace_cordiv rng xs : index_seq 2 rng -> bits xs ->
  exists st, run_r (sqrt_trace_step Unipolar false rng) sqrt_trace_init xs = Ok (st, insert_quotients rng [] 0 xs).
Proof.
  intros Hr Hb. apply (trace_cordiv_parse rng Hr (length xs)); try assumption; try reflexivity. constructor.
Qed.

(** ** FSUSqrt, emit modes *)
Definition emit_add_ok (s : fsuadd_st) (z : Z) : Prop :=
  (s = fsuadd_init sqrt_add_cfg /\ z = 0) \/
  exists acc, s = add_state sqrt_add_cfg 2 1 0 acc /\ (acc == inject_Z z)%Q.

Lemma emit_add_step s z x e : emit_add_ok s z -> 0 <= z -> bit x -> bit e -> z + x + e <= 256 ->
  snd (fsuadd_step sqrt_add_cfg s [x; e]) = b2z (z + x + e >=? 1) /\
  emit_add_ok (fst (fsuadd_step sqrt_add_cfg s [x; e])) (z + x + e - b2z (z + x + e >=? 1)).
Proof.
  intros Ho Hz Hx He Hle.
  assert (G : exists acc, (acc == inject_Z z)%Q /\ fsuadd_step sqrt_add_cfg s [x; e] =
     fsuadd_step sqrt_add_cfg (add_state sqrt_add_cfg 2 1 0 acc) [x; e]).
  { destruct Ho as [[-> ->]|(acc & -> & E)].
    - exists 0%Q. split; [reflexivity|]. unfold fsuadd_step. rewrite (fsuadd_first sqrt_add_cfg [x; e] None None). reflexivity.
    - exists acc. split; [exact E|reflexivity]. }
  destruct G as (acc & Ea & ->). unfold fsuadd_step. rewrite fsuadd_call_after. cbn [fst snd].
  change (acc_lim (fa_depth sqrt_add_cfg)) with (acc_lim 10).
  assert (El : (acc_lim 10 == 256)%Q) by reflexivity.
  assert (Ep : (acc + (inject_Z (zsum [x; e]) - 0) == inject_Z (z + x + e))%Q).
  { rewrite Ea. cbn [zsum]. rewrite !inject_Z_plus. change (inject_Z 0) with 0%Q. ring. }
  assert (B1 : (0 <= inject_Z (z + x + e))%Q).
  { change 0%Q with (inject_Z 0). apply inject_Z_le_iff. destruct Hx, He; lia. }
  assert (B2 : (inject_Z (z + x + e) <= 256)%Q).
  { change 256%Q with (inject_Z 256). apply inject_Z_le_iff. lia. }
  destruct (add_lane_free (acc_lim 10) 1 0 acc [x; e] ltac:(reflexivity)) as [F1 F2]; [lra|lra|].
  set (o := snd (add_lane (acc_lim 10) 1 0 acc [x; e])) in *. rewrite Ep in *.
  assert (Eo : o = b2z (z + x + e >=? 1)).
  { destruct F2 as [[-> F]|[-> F]].
    - change 1%Q with (inject_Z 1) in F. rewrite inject_Z_le_iff in F. destruct (_ >=? 1) eqn:E; [reflexivity|lia].
    - change 1%Q with (inject_Z 1) in F. rewrite inject_Z_lt_iff in F. destruct (_ >=? 1) eqn:E; [lia|reflexivity]. }
  split; [exact Eo|]. right. eexists. split; [reflexivity|]. rewrite <- Eo, F1.
  replace (z + x + e - o) with ((z + x + e) + - o) by lia. rewrite (inject_Z_plus (z + x + e)), inject_Z_opp. ring.
Qed.

Definition emit_uni (m : mode) (os : list Z) : list Z :=
  match m with Unipolar => os | Bipolar => outs (bi2uni_step 1) bi2uni_init os end.

Lemma emit_uni_snoc m os o : exists u, emit_uni m (os ++ [o]) = emit_uni m os ++ [u] /\ 
  u = match m with Unipolar => o | Bipolar => snd (bi2uni_step 1 (final (bi2uni_step 1) bi2uni_init os) o) end.
Proof. destruct m; [exists o; split; reflexivity|]. eexists. split; [|reflexivity]. cbn [emit_uni]. apply outs_snoc. Qed.

Lemma emit_uni_length m os : length (emit_uni m os) = length os.
Proof. destruct m; [reflexivity|apply outs_length]. Qed.

Lemma emitted_app n os us os' us' t : (t < length os)%nat -> length us = length os ->
  emitted n (os ++ os') (us ++ us') t = emitted n os us t.
Proof.
  intros Ht L. unfold emitted. rewrite app_nth1 by lia. destruct (t <? n)%nat eqn:E; [reflexivity|].
  rewrite app_nth1 by lia. reflexivity.
Qed.

Lemma reinjected_S n os us k : (1 <= k)%nat ->
  reinjected n os us (S k) = reinjected n os us k + emitted n os us (k - 1).
Proof.
  intros Hk. unfold reinjected. replace (S k - 1)%nat with (S (k - 1)) by lia.
  rewrite seq_S, map_app, zsum_app. cbn [map zsum]. rewrite Nat.add_0_l. lia.
Qed.

Lemma reinjected_app n os us os' us' k : (k <= S (length os))%nat -> length us = length os ->
  reinjected n (os ++ os') (us ++ us') k = reinjected n os us k.
Proof.
  intros Hk L. unfold reinjected. f_equal. apply map_ext_in. intros t Ht. apply in_seq in Ht. apply emitted_app; lia.
Qed.

Definition next_inj (n : nat) (os us : list Z) : Z :=
  match length os with O => 0 | S k => emitted n os us k end.

Lemma reinjected_next n os us : reinjected n os us (S (length os)) = reinjected n os us (length os) + next_inj n os us.
Proof.
  unfold next_inj. destruct (length os) as [|k]; [reflexivity|]. rewrite reinjected_S by lia.
  replace (S k - 1)%nat with k by lia. reflexivity.
Qed.

Lemma recent_first n os : (1 <= n)%nat ->
  nth 0 (recent n (map (fun o => 1 - o) os)) 0 =
  if (length os <? n)%nat then Z.of_nat (length os) mod 2 else 1 - nth (length os - n) os 0.
Proof.
  intros Hn. unfold recent, lastn. rewrite app_length, alternating_length, map_length.
  rewrite <- (Nat.add_0_r (n + length os - n)) at 1.
  assert (Es : forall (l : list Z) a, nth 0 (skipn a l) 0 = nth a l 0).
  { clear. induction l as [|x l IH]; intros [|a]; try reflexivity. cbn [skipn nth]. apply IH. }
  rewrite Es, Nat.add_0_r. replace (n + length os - n)%nat with (length os) by lia.
  destruct (Nat.ltb_spec (length os) n) as [L|G].
  - rewrite app_nth1 by (rewrite alternating_length; exact L). rewrite <- shiftreg_init_alt. unfold shiftreg_init.
    rewrite (nth_indep _ 0 (0 mod 2)) by (rewrite map_length; unfold zrange; rewrite map_length, seq_length; exact L).
    rewrite (map_nth (fun x => x mod 2)), nth_zrange by exact L. reflexivity.
  - rewrite app_nth2 by (rewrite alternating_length; exact G). rewrite alternating_length.
    rewrite (nth_indep _ 0 (1 - 0)) by (rewrite map_length; lia).
    rewrite (map_nth (fun o => 1 - o)). reflexivity.
Qed.

Definition emit_state (m : mode) (n : nat) (xs : list Z) : Prop :=
  let st := final (sqrt_emit_step m n) (sqrt_emit_init n) xs in
  let o := outs (sqrt_emit_step m n) (sqrt_emit_init n) xs in
  let z := ones xs + reinjected n o (emit_uni m o) (length o) - ones o in
  emit_add_ok (se_add st) z /\ se_idx st = 0 /\ se_sr st = recent n (map (fun o => 1 - o) o) /\
  se_emit st = next_inj n o (emit_uni m o) /\ bit (se_emit st) /\
  (m = Bipolar -> se_b2u st = final (bi2uni_step 1) bi2uni_init o) /\
  bits o /\ 0 <= z /\
  exists j, (j <= n)%nat /\ z + se_emit st <= Z.of_nat j /\
    forall i, (n - j <= i < n)%nat -> nth i (se_sr st) 0 = 0.

Lemma emit_inv m n xs : (1 <= n <= 255)%nat -> bits xs -> emit_state m n xs.
Proof.
  intros Hn. induction xs as [|x xs IH] using rev_ind; intros Hb.
  - unfold emit_state. cbn [final run fst outs snd length]. unfold sqrt_emit_init at 1 2 3 4 5 6 7.
    cbn [se_add se_idx se_sr se_emit se_b2u].
    split; [left; split; reflexivity|]. split; [reflexivity|].
    split; [rewrite shiftreg_init_alt; symmetry; apply recent_nil|]. split; [reflexivity|]. split; [left; reflexivity|].
    split; [reflexivity|]. split; [constructor|]. split; [cbn; lia|].
    exists 0%nat. split; [lia|]. split; [cbn; lia|]. intros i Hi. lia.
  - apply bits_snoc in Hb. destruct Hb as [Hb Hx]. specialize (IH Hb).
    unfold emit_state in *. cbn zeta in *. rewrite final_snoc, outs_snoc.
    set (st := final (sqrt_emit_step m n) (sqrt_emit_init n) xs) in *.
    set (o := outs (sqrt_emit_step m n) (sqrt_emit_init n) xs) in *.
    destruct IH as (I1 & I2 & I3 & I4 & I5 & I6 & I7 & I8 & j & J1 & J2 & J3).
    assert (Lo : length o = length xs) by apply outs_length. clearbody st o.
    set (z := ones xs + reinjected n o (emit_uni m o) (length o) - ones o) in *.
    destruct (emit_add_step (se_add st) z x (se_emit st) I1 I8 Hx I5) as [A1 A2]; [destruct Hx; lia|].
    set (y := b2z (z + x + se_emit st >=? 1)) in *.
    assert (Hy : bit y) by apply bit_b2z.
    destruct (emit_uni_snoc m o y) as (u & U1 & U2).
    assert (Hu : bit u /\ u <= y).
    { destruct m; [subst u; split; [exact Hy|lia]|].
      destruct (bi2uni_step 1 (final (bi2uni_step 1) bi2uni_init o) y) as [b' u'] eqn:Eb. cbn [snd] in U2. subst u'.
      pose proof (bi2uni_inv 1 o I7) as (Ia & _).
      destruct (bi2uni_step_facts 1 _ y b' u Hy Ia Eb) as (_ & F2 & F3 & _).
      split; [exact F2|]. destruct F2 as [->| ->]; [destruct Hy; lia|]. destruct F3 as [F3 _]. specialize (F3 eq_refl). lia. }
    set (hd0 := nth 0 (se_sr st) 0).
    assert (Hhd : bit hd0).
    { unfold hd0. rewrite I3. apply recent_bit. apply Forall_forall. intros v Hv. apply in_map_iff in Hv.
      destruct Hv as (w & <- & Hw). unfold bits in I7. rewrite Forall_forall in I7. destruct (I7 w Hw) as [->| ->]; cbv; tauto. }
    (* the new state *)
    assert (ST : sqrt_emit_step m n st x =
      ({| se_emit := Z.land hd0 u; se_add := fst (fsuadd_step sqrt_add_cfg (se_add st) [x; se_emit st]);
          se_sr := recent n (map (fun o => 1 - o) (o ++ [y])); se_idx := 0;
          se_b2u := match m with Unipolar => se_b2u st | Bipolar => final (bi2uni_step 1) bi2uni_init (o ++ [y]) end |}, y)).
    { unfold sqrt_emit_step. rewrite I2.
      destruct (fsuadd_step sqrt_add_cfg (se_add st) [x; se_emit st]) as [add' yy]. cbn [fst snd] in *. subst yy.
      assert (SR : shiftreg_step (se_sr st) (1 - y, None, 0 mod Z.of_nat n) =
        (recent n (map (fun o => 1 - o) (o ++ [y])), (hd0, zsum (se_sr st)))).
      { rewrite Z.mod_0_l by lia. rewrite (surjective_pairing (shiftreg_step _ _)). apply (f_equal2 pair); [|reflexivity].
        rewrite I3, shift_free by lia. rewrite map_app. reflexivity. }
      rewrite SR. destruct m.
      - subst u. reflexivity.
      - rewrite (I6 eq_refl). rewrite final_snoc.
        destruct (bi2uni_step 1 (final (bi2uni_step 1) bi2uni_init o) y) as [b' u']. cbn [fst snd] in *. subst u'. reflexivity. }
    rewrite ST. cbn [fst snd se_add se_idx se_sr se_emit se_b2u].
    assert (Ru : length (emit_uni m o) = length o) by apply emit_uni_length.
    assert (Z' : ones (xs ++ [x]) + reinjected n (o ++ [y]) (emit_uni m (o ++ [y])) (length (o ++ [y])) - ones (o ++ [y]) =
                 z + x + se_emit st - y).
    { rewrite U1, ones_snoc by exact Hx. rewrite ones_snoc by exact Hy. rewrite app_length. cbn [length].
      rewrite reinjected_app by lia. replace (length o + 1)%nat with (S (length o)) by lia.
      rewrite reinjected_next, <- I4. unfold z. lia. }
    rewrite Z'. split; [exact A2|]. split; [reflexivity|]. split; [reflexivity|].
    assert (NI : Z.land hd0 u = next_inj n (o ++ [y]) (emit_uni m (o ++ [y]))).
    { unfold next_inj. rewrite app_length. cbn [length]. replace (length o + 1)%nat with (S (length o)) by lia.
      unfold emitted. rewrite U1. rewrite (app_nth2 (emit_uni m o)) by lia. rewrite Ru, Nat.sub_diag. cbn [nth].
      rewrite land_bit_l by tauto. unfold hd0. rewrite I3, recent_first by lia.
      destruct (Nat.ltb_spec (length o) n) as [L|G]; [lia|]. rewrite app_nth1 by lia. lia. }
    split; [exact NI|].
    assert (Bl : bit (Z.land hd0 u)) by (destruct Hhd as [->| ->], (proj1 Hu) as [->| ->]; cbv; tauto).
    split; [exact Bl|]. split; [intros ->; reflexivity|].
    split; [apply bits_snoc; split; assumption|].
    assert (Pz : 0 <= z + x + se_emit st - y).
    { unfold y. destruct (_ >=? 1) eqn:E; cbn [b2z]; destruct Hx, I5; lia. }
    split; [exact Pz|].
    assert (SR : recent n (map (fun o => 1 - o) (o ++ [y])) = tl (se_sr st) ++ [1 - y]).
    { rewrite map_app. cbn [map]. rewrite recent_snoc by lia. rewrite I3. reflexivity. }
    assert (Ls : length (se_sr st) = n) by (rewrite I3; apply recent_length).
    assert (Et : forall i, nth i (tl (se_sr st)) 0 = nth (S i) (se_sr st) 0).
    { intros i. destruct (se_sr st); [destruct i; reflexivity|reflexivity]. }
    destruct Hy as [Hy|Hy].
    + (* output 0: everything is empty *)
      assert (z + x + se_emit st = 0).
      { destruct (z + x + se_emit st >=? 1) eqn:E; [discriminate Hy|]. destruct Hx, I5; lia. }
      exists 0%nat. split; [lia|]. split; [|intros i Hi; lia].
      rewrite Hy in *. assert (Hu0 : u = 0) by (destruct (proj1 Hu); lia). rewrite Hu0, Z.land_0_r. lia.
    + rewrite Hy in *. rewrite SR.
      assert (Lt : length (tl (se_sr st)) = (n - 1)%nat) by (destruct (se_sr st); cbn [length tl] in *; lia).
      destruct (Nat.eq_dec j n) as [->|Hj].
      * exists n. split; [lia|]. split.
        -- assert (hd0 = 0) by (apply J3; lia). rewrite H. rewrite Z.land_0_l. destruct Hx; lia.
        -- intros i Hi. destruct (Nat.eq_dec i (n - 1)) as [->|Hi'].
           ++ rewrite app_nth2 by lia. rewrite Lt, Nat.sub_diag. reflexivity.
           ++ rewrite app_nth1 by lia. rewrite Et. apply J3. lia.
      * exists (S j). split; [lia|]. split.
        -- destruct Hx, Bl; lia.
        -- intros i Hi. destruct (Nat.eq_dec i (n - 1)) as [->|Hi'].
           ++ rewrite app_nth2 by lia. rewrite Lt, Nat.sub_diag. reflexivity.
           ++ rewrite app_nth1 by lia. rewrite Et. apply J3. lia.
Qed.

Lemma emit_uni_firstn m os k : emit_uni m (firstn k os) = firstn k (emit_uni m os).
Proof. destruct m; [reflexivity|apply outs_firstn_all]. Qed.

Lemma reinjected_firstn n os us k j : (j <= S k)%nat -> (k <= length os)%nat -> length us = length os ->
  reinjected n (firstn k os) (firstn k us) j = reinjected n os us j.
Proof.
  intros Hj Hk L. rewrite <- (firstn_skipn k os) at 2. rewrite <- (firstn_skipn k us) at 2.
  symmetry. apply reinjected_app; rewrite !firstn_length; lia.
Qed.

Theorem sqrt_emit_law : forall m n xs, (1 <= n <= 255)%nat -> bits xs ->
  let o := outs (sqrt_emit_step m n) (sqrt_emit_init n) xs in
  let u := match m with Unipolar => o | Bipolar => outs (bi2uni_step 1) bi2uni_init o end in
  bits o /\ length o = length xs /\
  forall k, (k <= length xs)%nat ->
    0 <= ones (firstn k xs) + reinjected n o u k - ones (firstn k o) <= Z.of_nat n /\
    ((k < length xs)%nat -> nth k o 0 = if 1 <=? ones (firstn (S k) xs) + reinjected n o u (S k) - ones (firstn k o) then 1 else 0).
Proof.
  intros m n xs Hn Hb o u. change u with (emit_uni m o). clear u.
  destruct (emit_inv m n xs Hn Hb) as (_ & _ & _ & _ & _ & _ & B & _). fold o in B.
  assert (Lo : length o = length xs) by apply outs_length.
  split; [exact B|]. split; [exact Lo|]. intros k Hk.
  pose proof (bits_firstn xs k Hb) as Hbk.
  destruct (emit_inv m n (firstn k xs) Hn Hbk) as (I1 & I2 & I3 & I4 & I5 & I6 & I7 & I8 & j & J1 & J2 & J3).
  rewrite outs_firstn_all in *. fold o in I1, I3, I4, I6, I7, I8, J2.
  assert (Lk : length (firstn k o) = k) by (rewrite firstn_length; lia).
  rewrite Lk in *. rewrite emit_uni_firstn in *.
  assert (Lu : length (emit_uni m o) = length o) by apply emit_uni_length.
  rewrite (reinjected_firstn n o (emit_uni m o) k k) in * by lia.
  set (z := ones (firstn k xs) + reinjected n o (emit_uni m o) k - ones (firstn k o)) in *.
  split; [destruct I5; lia|]. intros Hlt.
  assert (En : nth k o 0 = snd (sqrt_emit_step m n (final (sqrt_emit_step m n) (sqrt_emit_init n) (firstn k xs)) (nth k xs 0))).
  { unfold o. apply (outs_nth _ _ _ _ 0 _ Hlt). }
  rewrite En. set (st := final (sqrt_emit_step m n) (sqrt_emit_init n) (firstn k xs)) in *.
  assert (Hx : bit (nth k xs 0)) by (apply (Forall_nth_lt bit); assumption).
  destruct (emit_add_step (se_add st) z (nth k xs 0) (se_emit st) I1 I8 Hx I5) as [A1 _]; [destruct Hx; lia|].
  assert (Eo : snd (sqrt_emit_step m n st (nth k xs 0)) = snd (fsuadd_step sqrt_add_cfg (se_add st) [nth k xs 0; se_emit st])).
  { unfold sqrt_emit_step. destruct (fsuadd_step _ _ _) as [a' y]. destruct (shiftreg_step _ _) as [r [s1 s2]].
    destruct m; [reflexivity|]. destruct (bi2uni_step _ _ _). reflexivity. }
  rewrite Eo, A1. rewrite (firstn_S_nth xs k 0 Hlt), ones_snoc by exact Hx.
  assert (Er : reinjected n o (emit_uni m o) (S k) = reinjected n o (emit_uni m o) k + se_emit st).
  { rewrite I4, <- (reinjected_firstn n o (emit_uni m o) k (S k)) by lia.
    rewrite <- (reinjected_firstn n o (emit_uni m o) k k) by lia.
    pose proof (reinjected_next n (firstn k o) (firstn k (emit_uni m o))) as R. rewrite Lk in R. exact R. }
  rewrite Er. replace (ones (firstn k xs) + nth k xs 0 + (reinjected n o (emit_uni m o) k + se_emit st) - ones (firstn k o))
    with (z + nth k xs 0 + se_emit st) by (unfold z; lia).
  rewrite Z.geb_leb. destruct (1 <=? _); reflexivity.
Qed.

Lemma sqrt_emit_256_refuted : exists xs k, bits xs /\ (k < length xs)%nat /\
  let o := outs (sqrt_emit_step Unipolar 256) (sqrt_emit_init 256) xs in
  nth k o 0 <> if 1 <=? ones (firstn (S k) xs) + reinjected 256 o o (S k) - ones (firstn k o) then 1 else 0.
Proof.
  exists (repeat 0 256 ++ repeat 1 257 ++ repeat 0 256), 768%nat.
  split.
  { repeat apply bits_app; apply Forall_forall; intros x Hx; apply repeat_spec in Hx; subst; unfold bit; lia. }
  split; [rewrite !app_length, !repeat_length; lia|]. vm_compute. discriminate.
Qed.


Lemma insert_ones_bounds n : forall xs, (length xs <= n)%nat -> bits xs ->
  ones xs <= ones (insert_ones xs) <= 2 * ones xs.
Proof.
  induction n as [|n IH]; intros xs L Hb.
  - destruct xs; [cbn; lia|cbn in L; lia].
  - destruct xs as [|x r]; [cbn; lia|]. cbn [length] in L. inversion Hb as [|? ? Hx Hr]; subst. cbn [insert_ones].
    destruct Hx as [->| ->]; cbn [Z.eqb].
    + rewrite !ones_cons. change (1 =? 0) with false. cbv iota. specialize (IH r ltac:(lia) Hr). lia.
    + destruct r as [|y r]; [cbn; lia|]. cbn [length] in L. inversion Hr as [|? ? Hy Hr2]; subst.
      rewrite !ones_cons. specialize (IH r ltac:(lia) Hr2). destruct Hy as [->| ->]; cbn [Z.eqb Pos.eqb]; lia.
Qed.

Lemma sqrt_trace_low rng xs : bits xs -> 0 < ones xs -> 4 * ones xs < zlen xs ->
  exists st o, run_r (sqrt_trace_step Unipolar true rng) sqrt_trace_init xs = Ok (st, o) /\
    ones o * ones o < ones xs * zlen xs.
Proof.
  intros Hb Hp Hq. destruct (sqrt_trace_jk rng xs Hb) as (st & E). exists st, (insert_ones xs). split; [exact E|].
  pose proof (insert_ones_bounds (length xs) xs ltac:(lia) Hb). nia.
Qed.
