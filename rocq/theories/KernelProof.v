(** Proofs about /repo/kernel/{mul,shiftreg,jkff,relu,signabs}.py. *)
Require Import Verif.BaseLemmas Verif.GenModel Verif.GenProof Verif.SobolProof Verif.KernelModel.
Open Scope Z_scope.

(** ** Counting sequence entries *)
Lemma below_S l B n : below l B (S n) = below l B n + b2z (cyc l n <? B).
Proof. unfold below. rewrite seq_S, countb_app. cbn [Nat.add countb]. unfold b2z. destruct (cyc l n <? B); lia. Qed.
Lemma below_0 l B : below l B 0 = 0. Proof. reflexivity. Qed.
Lemma below_bounds l B n : 0 <= below l B n <= Z.of_nat n.
Proof.
  unfold below. split; [apply countb_nonneg|].
  etransitivity; [apply countb_le_len|]. unfold zlen. rewrite seq_length. lia.
Qed.

Lemma below_stream l B n : (0 < length l)%nat -> below l B n = ones (bsgen_stream B l 0 n).
Proof. intros H. rewrite bsgen_stream0 by exact H. rewrite (ones_map_b2z (fun k => cyc l k <? B)). reflexivity. Qed.

Lemma below_periods w l B k : perm_seq w l -> below l B (k * 2 ^ w) = Z.of_nat k * zclamp 0 (p2 w) B.
Proof. intros H. rewrite below_stream by (apply (perm_seq_len_pos w), H). apply bsgen_exact_periods, H. Qed.

Lemma below_period_add w l B k r : perm_seq w l ->
  below l B (k * 2 ^ w + r) = Z.of_nat k * zclamp 0 (p2 w) B + below l B r.
Proof.
  intros H. rewrite <- (below_periods w l B k H). unfold below. rewrite seq_app, countb_app. f_equal.
  rewrite (countb_seq_offset _ (0 + k * 2 ^ w)). apply countb_ext. intros i _. f_equal.
  unfold cyc. rewrite (perm_seq_len w l H). cbn [Nat.add].
  rewrite Nat.add_comm, Nat.mod_add by (apply Nat.pow_nonzero; lia). reflexivity.
Qed.

(** ** FSUMul, static *)
Lemma land_bit_l x y : bit x -> bit y -> Z.land x y = x * y.
Proof. intros [->| ->] [->| ->]; reflexivity. Qed.
Lemma lor_bit x y : bit x -> bit y -> Z.lor x y = x + y - x * y.
Proof. intros [->| ->] [->| ->]; reflexivity. Qed.

Definition mul_out m B rng xs := outs (fsumul_static_step m B rng) fsumul_static_init xs.

Lemma to_nat_snoc n x : 0 <= n -> bit x -> Z.to_nat (n + x) = (Z.to_nat n + Z.to_nat x)%nat.
Proof. intros H [->| ->]; lia. Qed.

Lemma mul_static_uni B rng xs : (0 < length rng)%nat -> bits xs ->
  fst (final (fsumul_static_step Unipolar B rng) fsumul_static_init xs) = ones xs /\
  bits (mul_out Unipolar B rng xs) /\
  ones (mul_out Unipolar B rng xs) = below rng B (Z.to_nat (ones xs)).
Proof.
  intros Hl. induction xs as [|x xs IH] using rev_ind; intros Hb.
  - repeat split. constructor.
  - apply bits_snoc in Hb. destruct Hb as [Hb Hx]. destruct (IH Hb) as (H1 & H2 & H3). clear IH.
    unfold mul_out in *. rewrite final_snoc, outs_snoc.
    destruct (final (fsumul_static_step Unipolar B rng) fsumul_static_init xs) as [i j]. cbn [fst] in H1. subst i.
    set (os := outs (fsumul_static_step Unipolar B rng) fsumul_static_init xs) in *.
    unfold fsumul_static_step. cbn [fst snd]. rewrite ones_snoc by exact Hx.
    pose proof (ones_nonneg xs) as Hn.
    assert (Eb : bsgen_bit B rng (ones xs) = b2z (cyc rng (Z.to_nat (ones xs)) <? B)).
    { rewrite <- (bsgen_bit_cyc B rng (Z.to_nat (ones xs)) Hl). f_equal. lia. }
    pose proof (bsgen_bit_bit B rng (ones xs)) as Hbb.
    assert (Hl2 : bit (Z.land x (bsgen_bit B rng (ones xs)))).
    { rewrite land_bit_l by assumption. destruct Hx as [->| ->], Hbb as [->| ->]; unfold bit; lia. }
    split; [reflexivity|]. split; [apply bits_snoc; split; assumption|].
    rewrite ones_app, (ones_bit _ Hl2), land_bit_l by assumption. rewrite H3, Eb.
    destruct Hx as [->| ->].
    + rewrite Z.mul_0_l, !Z.add_0_r. reflexivity.
    + rewrite Z2Nat.inj_add by lia. change (Z.to_nat 1) with 1%nat. rewrite Nat.add_1_r, below_S. lia.
Qed.

Lemma mul_static_bi B rng xs : (0 < length rng)%nat -> bits xs ->
  final (fsumul_static_step Bipolar B rng) fsumul_static_init xs = (ones xs, zeros xs) /\
  bits (mul_out Bipolar B rng xs) /\
  ones (mul_out Bipolar B rng xs) =
    below rng B (Z.to_nat (ones xs)) + (zeros xs - below rng B (Z.to_nat (zeros xs))).
Proof.
  intros Hl. induction xs as [|x xs IH] using rev_ind; intros Hb.
  - repeat split. constructor.
  - apply bits_snoc in Hb. destruct Hb as [Hb Hx]. destruct (IH Hb) as (H1 & H2 & H3). clear IH.
    unfold mul_out in *. rewrite final_snoc, outs_snoc, H1.
    set (os := outs (fsumul_static_step Bipolar B rng) fsumul_static_init xs) in *.
    unfold fsumul_static_step. cbn [fst snd]. rewrite ones_snoc, zeros_snoc by exact Hx.
    pose proof (ones_nonneg xs) as Hn. pose proof (zeros_nonneg xs) as Hz.
    assert (Eb : forall z, 0 <= z -> bsgen_bit B rng z = b2z (cyc rng (Z.to_nat z) <? B)).
    { intros z Hz0. rewrite <- (bsgen_bit_cyc B rng (Z.to_nat z) Hl). f_equal. lia. }
    pose proof (bsgen_bit_bit B rng (ones xs)) as Hbb. pose proof (bsgen_bit_bit B rng (zeros xs)) as Hbz.
    assert (Ho : Z.lor (Z.land x (bsgen_bit B rng (ones xs))) (Z.land (1 - x) (1 - bsgen_bit B rng (zeros xs))) =
                 x * bsgen_bit B rng (ones xs) + (1 - x) * (1 - bsgen_bit B rng (zeros xs))).
    { destruct Hx as [->| ->], Hbb as [->| ->], Hbz as [->| ->]; reflexivity. }
    assert (Hob : bit (x * bsgen_bit B rng (ones xs) + (1 - x) * (1 - bsgen_bit B rng (zeros xs)))).
    { destruct Hx as [->| ->], Hbb as [->| ->], Hbz as [->| ->]; unfold bit; lia. }
    rewrite Ho. split; [reflexivity|]. split; [apply bits_snoc; split; assumption|].
    rewrite ones_app, (ones_bit _ Hob), H3, !Eb by assumption.
    destruct Hx as [->| ->].
    + rewrite Z.mul_0_l. replace (ones xs + 0) with (ones xs) by lia. replace (zeros xs + (1 - 0)) with (zeros xs + 1) by lia.
      rewrite (Z2Nat.inj_add (zeros xs)) by lia. change (Z.to_nat 1) with 1%nat. rewrite Nat.add_1_r, below_S. lia.
    + replace (zeros xs + (1 - 1)) with (zeros xs) by lia.
      rewrite (Z2Nat.inj_add (ones xs)) by lia. change (Z.to_nat 1) with 1%nat. rewrite Nat.add_1_r, below_S. lia.
Qed.

(** Sobol sequences: discrepancy at every count. *)
Lemma below_sobol ext w d B n : (w <= sobol_maxbit)%nat -> dirvec_ok sobol_maxbit (ext_dirvec ext d) ->
  0 <= B <= p2 w ->
  Z.abs (below (rng_seq ext KSobol w d) B n * p2 w - Z.of_nat n * B) <= Z.of_nat w * p2 w.
Proof.
  intros Hw HV HB. pose proof (rng_sobol_perm ext w d Hw HV) as HP.
  set (l := rng_seq ext KSobol w d) in *.
  set (N := (2 ^ w)%nat). assert (HN : (N <> 0)%nat) by (apply Nat.pow_nonzero; lia).
  pose proof (Nat.div_mod n N HN) as Edm. set (q := (n / N)%nat) in *. set (r := (n mod N)%nat) in *.
  assert (Hr : (r < N)%nat) by (apply Nat.mod_upper_bound; exact HN).
  assert (En : n = (q * 2 ^ w + r)%nat) by (fold N; lia).
  rewrite En at 1. rewrite (below_period_add w l B q r HP).
  assert (Ec : zclamp 0 (p2 w) B = B) by (unfold zclamp; lia). rewrite Ec.
  assert (Eb : below l B r = countb (fun i => sobw sobol_maxbit (ext_dirvec ext d) w i <? B) (seq 0 r)).
  { unfold below. apply countb_ext. intros i Hi. apply in_seq in Hi. f_equal.
    unfold cyc, l. rewrite rng_sobol by exact Hw. rewrite map_length, seq_length. fold N.
    rewrite Nat.mod_small by lia.
    rewrite nth_indep with (d' := sobw sobol_maxbit (ext_dirvec ext d) w 0) by (rewrite map_length, seq_length; lia).
    rewrite map_nth, seq_nth by lia. reflexivity. }
  pose proof (sobw_discrepancy sobol_maxbit (ext_dirvec ext d) HV w Hw B r HB ltac:(fold N; lia)) as Hd.
  rewrite <- Eb in Hd.
  replace ((Z.of_nat q * B + below l B r) * p2 w - Z.of_nat n * B)
    with (below l B r * p2 w - Z.of_nat r * B).
  - exact Hd.
  - rewrite En at 1. rewrite Nat2Z.inj_add, Nat2Z.inj_mul, p2_nat. ring.
Qed.

(** ** ShiftReg *)
Lemma roll_set (l : list Z) v : l <> [] -> set_last (roll_m1 l) v = tl l ++ [v].
Proof.
  destruct l as [|x r]; intros H; [contradiction|]. cbn [roll_m1 tl]. clear H.
  assert (G : forall r y, set_last (r ++ [y]) v = r ++ [v]).
  { clear. induction r as [|a r IH]; intros y; [reflexivity|]. cbn [app]. cbn [set_last].
    rewrite IH. destruct (r ++ [y]) eqn:E; [destruct r; discriminate|reflexivity]. }
  apply G.
Qed.

Lemma map2_mask m (a b : list Z) : length a = length b ->
  map2 (fun x y => m * x + (1 - m) * y) a b = if m =? 1 then a else if m =? 0 then b else map2 (fun x y => m * x + (1 - m) * y) a b.
Proof.
  intros L. destruct (Z.eqb_spec m 1) as [->|N1]; [|destruct (Z.eqb_spec m 0) as [->|N0]; [|reflexivity]].
  - revert b L; induction a as [|x a IH]; intros [|y b] L; cbn [length] in L; try lia; [reflexivity|].
    cbn [map2]. rewrite IH by lia. f_equal. lia.
  - revert b L; induction a as [|x a IH]; intros [|y b] L; cbn [length] in L; try lia; [reflexivity|].
    cbn [map2]. rewrite IH by lia. f_equal. lia.
Qed.

Lemma shiftreg_init_alt n : shiftreg_init n = alternating n.
Proof. unfold shiftreg_init, alternating, zrange. rewrite map_map. reflexivity. Qed.

Lemma alternating_length n : length (alternating n) = n.
Proof. unfold alternating. rewrite map_length, seq_length. reflexivity. Qed.

Lemma enabled_snoc h i : enabled (h ++ [i]) =
  enabled h ++ (match snd (fst i) with Some 0 => [] | _ => [fst (fst i)] end).
Proof.
  unfold enabled. rewrite filter_app, map_app. f_equal. cbn [filter].
  destruct (snd (fst i)) as [[| |]|]; reflexivity.
Qed.

Lemma shiftreg_contents n h : (1 <= n)%nat -> Forall mask_ok h ->
  final shiftreg_step (shiftreg_init n) h = lastn n (alternating n ++ enabled h).
Proof.
  intros Hn. induction h as [|i h IH] using rev_ind; intros Hm.
  - cbn. rewrite app_nil_r, lastn_all by (rewrite alternating_length; lia). apply shiftreg_init_alt.
  - apply Forall_app in Hm. destruct Hm as [Hm Hi]. inversion Hi as [|? ? Hi1 _]; subst.
    rewrite final_snoc, (IH Hm), enabled_snoc, app_assoc.
    set (past := alternating n ++ enabled h).
    assert (Lp : (n <= length past)%nat) by (unfold past; rewrite app_length, alternating_length; lia).
    pose proof (lastn_length n past Lp) as Ll.
    destruct i as [[x [m|]] ix]; unfold mask_ok in Hi1; cbn [fst snd shiftreg_step] in *.
    + assert (Hne : lastn n past <> []) by (destruct (lastn n past); [cbn in Ll; lia|discriminate]).
      rewrite (roll_set (lastn n past) x Hne).
      assert (Ltl : length (tl (lastn n past) ++ [x]) = length (lastn n past)).
      { rewrite app_length. destruct (lastn n past); [contradiction|]. cbn. lia. }
      rewrite map2_mask by exact Ltl.
      destruct Hi1 as [->| ->].
      * cbn [Z.eqb]. rewrite app_nil_r. reflexivity.
      * cbn [Z.eqb Pos.eqb]. symmetry. apply lastn_snoc; assumption.
    + assert (Hne : lastn n past <> []) by (destruct (lastn n past); [cbn in Ll; lia|discriminate]).
      rewrite (roll_set (lastn n past) x Hne). symmetry. apply lastn_snoc; assumption.
Qed.

(** ** JKFF *)
Lemma jkff_step_cases q p : bit q ->
  (jk_hold p -> jkff_step q p = (q, q)) /\
  (jk_toggle p -> jkff_step q p = (1 - q, 1 - q)) /\
  (jk_set p -> jkff_step q p = (1, 1)) /\
  (jk_reset p -> jkff_step q p = (0, 0)).
Proof.
  intros Hq. destruct p as [J K]. unfold jk_hold, jk_toggle, jk_set, jk_reset, jkff_step. cbn [fst snd].
  destruct (Z.eqb_spec J 0), (Z.eqb_spec K 0); subst; cbn [b2z]; repeat split; intros [A B]; try contradiction;
    destruct Hq as [->| ->]; reflexivity.
Qed.

Lemma jkff_bit q p : bit q -> bit (fst (jkff_step q p)) /\ snd (jkff_step q p) = fst (jkff_step q p).
Proof.
  intros Hq. destruct p as [J K]. unfold jkff_step.
  destruct (Z.eqb_spec J 0), (Z.eqb_spec K 0); cbn [b2z fst snd]; (split; [|reflexivity]);
    destruct Hq as [->| ->]; cbn; unfold bit; lia.
Qed.

Lemma jkff_final_bit h : bit (final jkff_step jkff_init h).
Proof.
  induction h as [|p h IH] using rev_ind; [left; reflexivity|].
  rewrite final_snoc. apply jkff_bit, IH.
Qed.

Lemma jkff_parity q h : bit q -> Forall no_force h ->
  final jkff_step q h = (q + jk_toggles h) mod 2.
Proof.
  intros Hq. induction h as [|p h IH] using rev_ind; intros Hn.
  - cbn. destruct Hq as [->| ->]; reflexivity.
  - apply Forall_app in Hn. destruct Hn as [Hn Hp]. inversion Hp as [|? ? Hp1 _]; subst.
    rewrite final_snoc, (IH Hn). unfold jk_toggles. rewrite countb_app. cbn [countb]. fold (jk_toggles h).
    set (t := q + jk_toggles h).
    assert (Hb : bit (t mod 2)) by (pose proof (Z.mod_pos_bound t 2); unfold bit; lia).
    destruct (jkff_step_cases (t mod 2) p Hb) as (C1 & C2 & _ & _).
    destruct Hp1 as [Hh|Ht].
    + rewrite (C1 Hh). cbn [fst]. destruct Hh as [-> ->]. cbn [Z.eqb negb andb]. f_equal. lia.
    + rewrite (C2 Ht). cbn [fst]. destruct Ht as [T1 T2].
      apply Z.eqb_neq in T1. apply Z.eqb_neq in T2. rewrite T1, T2. cbn [negb andb].
      replace (q + (jk_toggles h + (1 + 0))) with (t + 1) by (unfold t; lia).
      pose proof (Z.div_mod t 2 ltac:(lia)).
      destruct Hb as [E|E]; rewrite E in *.
      * apply Z.mod_unique with (q := t / 2); lia.
      * apply Z.mod_unique with (q := t / 2 + 1); lia.
Qed.

Lemma jkff_after_set pre p post : jk_set p -> Forall no_force post ->
  final jkff_step jkff_init (pre ++ p :: post) = (1 + jk_toggles post) mod 2.
Proof.
  intros Hs Hn. rewrite final_app, final_cons.
  destruct (jkff_step_cases _ p (jkff_final_bit pre)) as (_ & _ & C3 & _). rewrite (C3 Hs). cbn [fst].
  apply jkff_parity; [right; reflexivity|exact Hn].
Qed.
Lemma jkff_after_reset pre p post : jk_reset p -> Forall no_force post ->
  final jkff_step jkff_init (pre ++ p :: post) = (0 + jk_toggles post) mod 2.
Proof.
  intros Hs Hn. rewrite final_app, final_cons.
  destruct (jkff_step_cases _ p (jkff_final_bit pre)) as (_ & _ & _ & C4). rewrite (C4 Hs). cbn [fst].
  apply jkff_parity; [left; reflexivity|exact Hn].
Qed.

Lemma jkff_run_ones L : outs jkff_step 0 (repeat (1, 1) L) = map (fun x => 1 - x) (alternating L).
Proof.
  induction L as [|L IH]; [reflexivity|].
  assert (E : repeat (1, 1) (S L) = repeat (1, 1) L ++ [(1, 1)]).
  { clear. induction L as [|L IH]; [reflexivity|]. cbn [repeat app] in *. f_equal. exact IH. }
  rewrite E, outs_snoc, IH. unfold alternating. rewrite seq_S, !map_app. f_equal. cbn [map Nat.add].
  assert (Hn : Forall no_force (repeat (1, 1) L)).
  { apply Forall_forall. intros p Hp. apply repeat_spec in Hp. subst p. right. split; discriminate. }
  rewrite (jkff_parity 0 _ (or_introl eq_refl) Hn).
  assert (Et : jk_toggles (repeat (1, 1) L) = Z.of_nat L).
  { clear. unfold jk_toggles. induction L as [|L IH]; [reflexivity|]. cbn [repeat countb]. rewrite IH. cbn [fst snd Z.eqb negb andb]. lia. }
  rewrite Et, Z.add_0_l. f_equal.
  assert (Hb : bit (Z.of_nat L mod 2)) by (pose proof (Z.mod_pos_bound (Z.of_nat L) 2); unfold bit; lia).
  destruct Hb as [E0|E0]; rewrite E0; reflexivity.
Qed.

Lemma alternating_ones L : ones (map (fun x => 1 - x) (alternating L)) = (Z.of_nat L + 1) / 2.
Proof.
  induction L as [|L IH]; [reflexivity|].
  unfold alternating in *. rewrite seq_S, !map_app, ones_app, IH. cbn [map Nat.add].
  assert (Hb : bit (Z.of_nat L mod 2)) by (pose proof (Z.mod_pos_bound (Z.of_nat L) 2); unfold bit; lia).
  assert (Hb1 : bit (1 - Z.of_nat L mod 2)) by (destruct Hb as [->| ->]; unfold bit; lia).
  rewrite (ones_bit _ Hb1). rewrite Nat2Z.inj_succ.
  pose proof (Z.div_mod (Z.of_nat L) 2 ltac:(lia)) as D.
  destruct Hb as [E|E]; rewrite E in *.
  - replace ((Z.of_nat L + 1) / 2) with (Z.of_nat L / 2) by (apply Z.div_unique with (r := 1); lia).
    apply Z.div_unique with (r := 0); lia.
  - replace ((Z.of_nat L + 1) / 2) with (Z.of_nat L / 2 + 1) by (apply Z.div_unique with (r := 0); lia).
    apply Z.div_unique with (r := 1); lia.
Qed.

(** ** FSUSignAbs *)
Lemma prefix_range_snoc (P : list Z -> Prop) xs x :
  (forall k, P (firstn k (xs ++ [x]))) -> (forall k, P (firstn k xs)) /\ P (xs ++ [x]).
Proof.
  intros H. split.
  - intros k. destruct (Nat.le_gt_cases k (length xs)) as [L|G].
    + specialize (H k). rewrite firstn_app in H. replace (k - length xs)%nat with 0%nat in H by lia.
      cbn [firstn] in H. rewrite app_nil_r in H. exact H.
    + specialize (H (length xs)). rewrite firstn_app, Nat.sub_diag, firstn_all in H. cbn [firstn] in H.
      rewrite app_nil_r in H. rewrite firstn_all2 by lia. exact H.
  - specialize (H (length (xs ++ [x]))). rewrite firstn_all in H. exact H.
Qed.

Lemma returns_snoc s xs x : bits xs ->
  returns_to_zero s (xs ++ [x]) = returns_to_zero s xs + (if (s + walk xs =? -1) && (x =? 1) then 1 else 0).
Proof.
  intros Hb; revert s; induction Hb as [|y r Hy Hr IH]; intros s.
  - cbn [app returns_to_zero]. change (walk []) with 0. rewrite !Z.add_0_r. reflexivity.
  - cbn [app returns_to_zero]. rewrite IH.
    assert (E : walk (y :: r) = (2 * y - 1) + walk r).
    { change (y :: r) with ([y] ++ r). rewrite walk_app, (walk_bit y Hy). reflexivity. }
    rewrite E. replace (s + (2 * y - 1) + walk r) with (s + (2 * y - 1 + walk r)) by lia. lia.
Qed.

Lemma lxor_bit x y : bit x -> bit y -> Z.lxor x y = if x =? 1 then 1 - y else y.
Proof. intros [->| ->] [->| ->]; reflexivity. Qed.

Lemma signabs_inv d xs : bits xs -> in_signabs_range d xs ->
  final (fsusignabs_step d) (fsusignabs_init d) xs = p2 d + walk xs /\
  walk (map snd (outs (fsusignabs_step d) (fsusignabs_init d) xs)) = Z.abs (walk xs) + 2 * returns_to_zero 0 xs.
Proof.
  induction xs as [|x xs IH] using rev_ind; intros Hb Hr.
  - cbn. unfold fsusignabs_init. split; [lia|reflexivity].
  - apply bits_snoc in Hb. destruct Hb as [Hb Hx].
    apply (prefix_range_snoc (fun p => - p2 d <= walk p <= p2 d - 1)) in Hr. destruct Hr as [Hr Hl].
    destruct (IH Hb Hr) as [H1 H2]. clear IH.
    rewrite (walk_snoc xs x Hx) in *.
    rewrite final_snoc, outs_snoc, map_app, walk_app, H1, H2. clear H1 H2.
    unfold fsusignabs_step, zclamp. cbn [fst snd map]. rewrite p2_S.
    assert (Ec : Z.min (Z.max (p2 d + walk xs + (x * 2 - 1)) 0) (2 * p2 d - 1) = p2 d + (walk xs + (2 * x - 1))) by lia.
    rewrite Ec. split; [reflexivity|].
    rewrite (returns_snoc 0 xs x Hb), Z.add_0_l.
    specialize (Hr (length xs)). rewrite firstn_all in Hr.
    set (S := walk xs) in *.
    rewrite lxor_bit by (try apply bit_b2z; exact Hx).
    destruct (Z.ltb_spec (p2 d + (S + (2 * x - 1))) (p2 d)) as [Ln|Gn]; cbn [b2z Z.eqb Pos.eqb].
    + rewrite walk_bit by (destruct Hx as [->| ->]; unfold bit; lia).
      destruct (Z.eqb_spec S (-1)), (Z.eqb_spec x 1); cbn [andb]; destruct Hx as [->| ->]; lia.
    + rewrite walk_bit by exact Hx.
      destruct (Z.eqb_spec S (-1)), (Z.eqb_spec x 1); cbn [andb]; destruct Hx as [->| ->]; lia.
Qed.

Lemma signabs_out d xs k : bits xs -> (k < length xs)%nat ->
  let o := nth k (outs (fsusignabs_step d) (fsusignabs_init d) xs) (0, 0) in
  bit (fst o) /\ bit (snd o) /\ snd o = Z.lxor (fst o) (nth k xs 0) /\
  (in_signabs_range d xs -> (fst o = 1 <-> walk (firstn (S k) xs) < 0)).
Proof.
  intros Hb Hk. cbn zeta. rewrite (outs_nth _ _ _ _ 0 _ Hk).
  assert (Hx : bit (nth k xs 0)) by (unfold bits in Hb; rewrite Forall_forall in Hb; apply Hb, nth_In, Hk).
  set (acc := final (fsusignabs_step d) (fsusignabs_init d) (firstn k xs)).
  unfold fsusignabs_step. cbn [fst snd].
  split; [apply bit_b2z|]. split.
  { rewrite lxor_bit by (try apply bit_b2z; exact Hx). destruct (b2z _ =? 1); destruct Hx as [->| ->]; unfold bit; lia. }
  split; [reflexivity|]. intros Hr.
  assert (Hr' : in_signabs_range d (firstn (S k) xs)).
  { intros j. rewrite firstn_firstn. apply Hr. }
  assert (E : firstn (S k) xs = firstn k xs ++ [nth k xs 0]).
  { rewrite (nth_cut xs k 0 Hk) at 1. rewrite firstn_app, firstn_firstn, firstn_length.
    rewrite (Nat.min_r (S k) k), (Nat.min_l k (length xs)) by lia.
    replace (S k - k)%nat with 1%nat by lia. reflexivity. }
  destruct (signabs_inv d (firstn (S k) xs)) as [H1 _]; [apply bits_firstn, Hb|exact Hr'|].
  rewrite E in H1 at 1. rewrite final_snoc in H1. fold acc in H1. unfold fsusignabs_step in H1. cbn [fst] in H1.
  rewrite H1. destruct (Z.ltb_spec (p2 d + walk (firstn (S k) xs)) (p2 d)); cbn [b2z]; split; lia.
Qed.

(** ** FSUReLU *)
Definition relu_out d xs := outs (fsurelu_step d) (fsurelu_init d) xs.
Definition relu_acc d xs := final (fsurelu_step d) (fsurelu_init d) xs.

Lemma relu_step_facts d acc x : bit x -> p2 d - 1 <= acc <= 2 * p2 d - 1 ->
  let o := snd (fsurelu_step d acc x) in
  let acc' := fst (fsurelu_step d acc x) in
  bit o /\ x <= o /\ (o = if acc <? p2 d then 1 else x) /\
  acc' = Z.min (2 * p2 d - 1) (acc + (2 * o - 1)) /\ p2 d - 1 <= acc' <= 2 * p2 d - 1.
Proof.
  intros Hx Ha. unfold fsurelu_step, zclamp. cbn [fst snd]. pose proof (p2_pos d) as Hp. rewrite p2_S.
  rewrite lor_bit by (try exact Hx; destruct (acc >=? p2 d); unfold bit; cbn; lia).
  destruct (Z.geb_spec acc (p2 d)) as [G|L]; destruct (Z.ltb_spec acc (p2 d)); try lia; cbn [b2z];
    destruct Hx as [->| ->]; unfold bit; lia.
Qed.

Lemma max_prefixes_last f xs : f xs <= max_over_prefixes f xs.
Proof. pose proof (max_prefixes_bound f xs (length xs)) as H. rewrite firstn_all in H. exact H. Qed.

Definition dip (xs : list Z) : Z := Z.max 0 (max_over_prefixes (fun p => -1 - walk p) xs).

Lemma dip_snoc xs x : bit x -> dip (xs ++ [x]) = Z.max (dip xs) (-1 - walk xs - (2 * x - 1)).
Proof. intros Hx. unfold dip. rewrite max_prefixes_snoc, walk_snoc by exact Hx. lia. Qed.
Lemma dip_ge xs : -1 - walk xs <= dip xs.
Proof. unfold dip. pose proof (max_prefixes_last (fun p => -1 - walk p) xs) as H. cbv beta in H. lia. Qed.

(** Invariant valid for every input. *)
Lemma relu_inv d xs : bits xs ->
  p2 d - 1 <= relu_acc d xs <= 2 * p2 d - 1 /\
  bits (relu_out d xs) /\ Forall2 (fun x o => x <= o) xs (relu_out d xs) /\
  relu_acc d xs <= p2 d + walk (relu_out d xs) /\
  exists J, 0 <= J /\ walk (relu_out d xs) = walk xs + 2 * J /\ dip xs <= 2 * J.
Proof.
  induction xs as [|x xs IH] using rev_ind; intros Hb.
  - change (relu_acc d []) with (p2 d). change (walk (relu_out d [])) with 0. pose proof (p2_pos d).
    change (relu_out d []) with (@nil Z). split; [lia|]. split; [constructor|]. split; [constructor|]. split; [lia|].
    exists 0. unfold dip. cbn. lia.
  - apply bits_snoc in Hb. destruct Hb as [Hb Hx]. destruct (IH Hb) as (Ha & Ho & Hf & Hw & J & HJ0 & HJ & HD). clear IH.
    unfold relu_acc, relu_out in *. rewrite final_snoc, outs_snoc.
    set (acc := final (fsurelu_step d) (fsurelu_init d) xs) in *.
    set (os := outs (fsurelu_step d) (fsurelu_init d) xs) in *.
    destruct (relu_step_facts d acc x Hx Ha) as (B1 & B2 & B3 & B4 & B5).
    set (o := snd (fsurelu_step d acc x)) in *. set (acc' := fst (fsurelu_step d acc x)) in *.
    split; [exact B5|]. split; [apply bits_snoc; split; assumption|].
    split; [apply Forall2_app; [exact Hf|repeat constructor; exact B2]|].
    rewrite (walk_snoc os o B1), (walk_snoc xs x Hx), (dip_snoc xs x Hx).
    split; [lia|]. exists (J + (o - x)).
    assert (bit (o - x)) by (destruct B1, Hx; unfold bit; lia).
    destruct (Z.ltb_spec acc (p2 d)) as [L|G]; destruct Hx as [->| ->]; lia.
Qed.

Lemma relu_exact d xs : bits xs ->
  (forall k, reflected_walk (firstn k xs) <= p2 d - 1) ->
  relu_acc d xs = p2 d + walk (relu_out d xs) /\ walk (relu_out d xs) = reflected_walk xs.
Proof.
  assert (G : bits xs -> (forall k, reflected_walk (firstn k xs) <= p2 d - 1) ->
    relu_acc d xs = p2 d + walk (relu_out d xs) /\
    exists J, 0 <= J /\ walk (relu_out d xs) = walk xs + 2 * J /\ 2 * J - 1 <= dip xs <= 2 * J).
  { induction xs as [|x xs IH] using rev_ind; intros Hb Hr.
    - change (relu_acc d []) with (p2 d). change (walk (relu_out d [])) with 0. split; [lia|]. exists 0. unfold dip. cbn. lia.
    - apply bits_snoc in Hb. destruct Hb as [Hb Hx].
      apply (prefix_range_snoc (fun p => reflected_walk p <= p2 d - 1)) in Hr. destruct Hr as [Hr Hl].
      destruct (IH Hb Hr) as (Ha & J & HJ0 & HJ & HD). clear IH.
      pose proof (relu_inv d xs Hb) as (Hac & Ho & _).
      unfold relu_acc, relu_out in *. rewrite final_snoc, outs_snoc.
      set (acc := final (fsurelu_step d) (fsurelu_init d) xs) in *.
      set (os := outs (fsurelu_step d) (fsurelu_init d) xs) in *.
      destruct (relu_step_facts d acc x Hx Hac) as (B1 & B2 & B3 & B4 & B5).
      set (o := snd (fsurelu_step d acc x)) in *. set (acc' := fst (fsurelu_step d acc x)) in *.
      unfold reflected_walk in Hl. fold (dip (xs ++ [x])) in Hl.
      rewrite (walk_snoc os o B1). rewrite (walk_snoc xs x Hx) in *. rewrite (dip_snoc xs x Hx) in *.
      assert (HJ' : exists J', 0 <= J' /\ walk os + (2 * o - 1) = walk xs + (2 * x - 1) + 2 * J' /\
                2 * J' - 1 <= Z.max (dip xs) (-1 - walk xs - (2 * x - 1)) <= 2 * J').
      { exists (J + (o - x)). pose proof (dip_ge xs).
        destruct (Z.ltb_spec acc (p2 d)) as [L|G]; destruct Hx as [->| ->]; lia. }
      destruct HJ' as (J' & HJ0' & HJ1 & HD').
      split; [|exists J'; split; [exact HJ0'|split; [exact HJ1|exact HD']]].
      assert (E : (Z.max (dip xs) (-1 - walk xs - (2 * x - 1)) + 1) / 2 = J').
      { symmetry. destruct (Z.eq_dec (Z.max (dip xs) (-1 - walk xs - (2 * x - 1))) (2 * J')) as [E|E].
        - apply Z.div_unique with (r := 1); lia.
        - apply Z.div_unique with (r := 0); lia. }
      rewrite E in Hl. lia. }
  intros Hb Hr. destruct (G Hb Hr) as (Ha & J & HJ0 & HJ & HD). split; [exact Ha|].
  rewrite HJ. unfold reflected_walk. fold (dip xs). f_equal. f_equal. symmetry.
  symmetry. destruct (Z.eq_dec (dip xs) (2 * J)) as [E|E].
  - apply Z.div_unique with (r := 1); lia.
  - apply Z.div_unique with (r := 0); lia.
Qed.

Lemma relu_lower d xs : bits xs ->
  -1 <= walk (relu_out d xs) /\ reflected_walk xs <= walk (relu_out d xs).
Proof.
  intros Hb. destruct (relu_inv d xs Hb) as (Ha & _ & _ & Hw & J & HJ0 & HJ & HD). split; [lia|].
  unfold reflected_walk. fold (dip xs). rewrite HJ.
  assert ((dip xs + 1) / 2 < J + 1); [|lia].
  apply Z.div_lt_upper_bound; lia.
Qed.

(** ** FSUMul, in-stream *)
Lemma zsum_ones l : bits l -> zsum l = ones l.
Proof.
  induction 1 as [|x l Hx Hl IH]; [reflexivity|].
  change (x :: l) with ([x] ++ l). rewrite ones_app, (ones_bit x Hx), <- IH.
  unfold zsum. reflexivity.
Qed.

Lemma alternating_bits n : bits (alternating n).
Proof.
  unfold alternating. apply Forall_forall. intros y Hy. apply in_map_iff in Hy. destruct Hy as (i & <- & _).
  pose proof (Z.mod_pos_bound (Z.of_nat i) 2). unfold bit. lia.
Qed.

Lemma bits_app l1 l2 : bits l1 -> bits l2 -> bits (l1 ++ l2).
Proof. intros H1 H2. apply Forall_app. split; assumption. Qed.

Lemma bits_lastn n l : bits l -> bits (lastn n l).
Proof.
  unfold bits. rewrite !Forall_forall. intros H x Hx. apply H. unfold lastn in Hx.
  rewrite <- (firstn_skipn (length l - n) l). apply in_or_app. right. exact Hx.
Qed.

Lemma window_bits w past : bits past -> bits (window w past).
Proof. intros H. apply bits_lastn, bits_app; [apply alternating_bits|exact H]. Qed.

Definition is_inv (m : mode) (w : nat) (h : list (Z * Z)) (st : fsumul_is_st) : Prop :=
  mi_sr st = window w (map snd h) /\
  mi_idx st = ones (map fst h) mod p2 w /\
  (m = Bipolar -> mi_idx_inv st = zeros (map fst h) mod p2 w).

Lemma is_inv_final m w rng h : Forall (fun p => bit (fst p)) h ->
  is_inv m w h (final (fsumul_is_step m w rng) (fsumul_is_init w) h).
Proof.
  pose proof (p2_pos w) as Hp.
  assert (HN : (1 <= 2 ^ w)%nat) by (pose proof (Nat.pow_nonzero 2 w); lia).
  induction h as [|p h IH] using rev_ind; intros Hb.
  - unfold is_inv, fsumul_is_init. cbn [final run map mi_sr mi_idx mi_idx_inv]. cbn.
    split; [|split; [reflexivity|intros _; reflexivity]].
    unfold window, recent. rewrite app_nil_r, lastn_all by (rewrite alternating_length; lia). apply shiftreg_init_alt.
  - apply Forall_app in Hb. destruct Hb as [Hb Hp1]. inversion Hp1 as [|? ? Hx _]; subst.
    destruct (IH Hb) as (I1 & I2 & I3). clear IH. rewrite final_snoc.
    set (st := final (fsumul_is_step m w rng) (fsumul_is_init w) h) in *. clearbody st.
    destruct p as [x y]. cbn [fst] in Hx. unfold is_inv. rewrite !map_app. cbn [map fst snd].
    rewrite ones_snoc, zeros_snoc by exact Hx.
    assert (Esr : set_last (roll_m1 (mi_sr st)) y = window w (map snd h ++ [y])).
    { rewrite I1. unfold window, recent. rewrite app_assoc.
      set (past := alternating (2 ^ w) ++ map snd h).
      assert (Lp : (2 ^ w <= length past)%nat) by (unfold past; rewrite app_length, alternating_length; lia).
      pose proof (lastn_length (2 ^ w) past Lp) as Ll.
      rewrite roll_set by (destruct (lastn (2 ^ w) past); [cbn in Ll; lia|discriminate]).
      symmetry. apply lastn_snoc; assumption. }
    unfold fsumul_is_step, shiftreg_step. destruct m; cbn [fst snd mi_sr mi_idx mi_idx_inv].
    + split; [exact Esr|]. split; [|intros E; discriminate]. rewrite I2, Zplus_mod_idemp_l. reflexivity.
    + split; [exact Esr|]. split; [rewrite I2, Zplus_mod_idemp_l; reflexivity|].
      intros _. rewrite (I3 eq_refl), Zplus_mod_idemp_l. reflexivity.
Qed.

Lemma nthZ_mod_cyc w rng z : length rng = (2 ^ w)%nat -> 0 <= z ->
  nthZ rng (z mod p2 w) = cyc rng (Z.to_nat z).
Proof.
  intros Hl Hz. pose proof (p2_pos w) as Hp.
  rewrite <- (Z2Nat.id z) at 1 by exact Hz. rewrite <- (p2_nat w).
  rewrite <- Nat2Z.inj_mod. rewrite <- Hl. unfold nthZ, cyc. rewrite Nat2Z.id. reflexivity.
Qed.

Lemma is_out m w rng h k : length rng = (2 ^ w)%nat ->
  Forall (fun p => bit (fst p) /\ bit (snd p)) h -> (k < length h)%nat ->
  nth k (outs (fsumul_is_step m w rng) (fsumul_is_init w) h) 0 =
  let past := firstn k h in
  let x := fst (nth k h (0, 0)) in
  let W := ones (window w (map snd past)) in
  if x =? 1 then b2z (cyc rng (Z.to_nat (ones (map fst past))) <? W)
  else match m with
       | Unipolar => 0
       | Bipolar => 1 - b2z (cyc rng (Z.to_nat (zeros (map fst past))) <? W)
       end.
Proof.
  intros Hl Hb Hk. rewrite (outs_nth _ _ _ _ (0, 0) _ Hk). cbn zeta.
  assert (Hx : bit (fst (nth k h (0, 0)))).
  { rewrite Forall_forall in Hb. apply Hb, nth_In, Hk. }
  assert (Hb1 : Forall (fun p => bit (fst p)) (firstn k h)).
  { apply Forall_forall. intros p Hp. rewrite Forall_forall in Hb. apply Hb.
    rewrite <- (firstn_skipn k h). apply in_or_app. left. exact Hp. }
  assert (Hb2 : bits (map snd (firstn k h))).
  { apply Forall_forall. intros y Hy. apply in_map_iff in Hy. destruct Hy as (p & <- & Hp).
    rewrite Forall_forall in Hb. apply Hb. rewrite <- (firstn_skipn k h). apply in_or_app. left. exact Hp. }
  destruct (is_inv_final m w rng (firstn k h) Hb1) as (I1 & I2 & I3).
  set (st := final (fsumul_is_step m w rng) (fsumul_is_init w) (firstn k h)) in *. clearbody st.
  destruct (nth k h (0, 0)) as [x y]. cbn [fst] in *.
  unfold fsumul_is_step, shiftreg_step. cbn [snd].
  rewrite I1, I2, zsum_ones by (apply window_bits, Hb2).
  rewrite (nthZ_mod_cyc w rng _ Hl) by apply ones_nonneg.
  set (W := ones (window w (map snd (firstn k h)))).
  rewrite !Z.gtb_ltb.
  destruct m.
  - cbn [snd]. destruct Hx as [->| ->]; [reflexivity|]. cbn [Z.eqb Pos.eqb].
    destruct (_ <? W); reflexivity.
  - rewrite (I3 eq_refl), (nthZ_mod_cyc w rng _ Hl) by apply zeros_nonneg. cbn [snd].
    destruct Hx as [->| ->]; cbn [Z.eqb Pos.eqb]; destruct (_ <? W); destruct (_ <? W); reflexivity.
Qed.

(** ** Bundles used by the property files *)
Lemma mul_static_count m B rng xs : (0 < length rng)%nat -> bits xs ->
  let o := outs (fsumul_static_step m B rng) fsumul_static_init xs in
  bits o /\
  ones o = below rng B (Z.to_nat (ones xs)) +
           match m with Unipolar => 0 | Bipolar => zeros xs - below rng B (Z.to_nat (zeros xs)) end.
Proof.
  intros Hl Hb. cbn zeta. destruct m.
  - destruct (mul_static_uni B rng xs Hl Hb) as (_ & H1 & H2). unfold mul_out in *. rewrite Z.add_0_r. split; assumption.
  - destruct (mul_static_bi B rng xs Hl Hb) as (_ & H1 & H2). split; assumption.
Qed.

Lemma countb_perm {A} (f : A -> bool) l1 l2 : Permutation l1 l2 -> countb f l1 = countb f l2.
Proof. induction 1; cbn [countb]; lia. Qed.

Lemma bits_perm l1 l2 : Permutation l1 l2 -> bits l1 -> bits l2.
Proof. intros P H. unfold bits in *. rewrite Forall_forall in *. intros x Hx. apply H. eapply Permutation_in; [symmetry; exact P|exact Hx]. Qed.

Lemma mul_static_order m B rng xs ys : (0 < length rng)%nat -> bits xs -> Permutation xs ys ->
  ones (outs (fsumul_static_step m B rng) fsumul_static_init ys) =
  ones (outs (fsumul_static_step m B rng) fsumul_static_init xs).
Proof.
  intros Hl Hb P.
  destruct (mul_static_count m B rng xs Hl Hb) as [_ ->].
  destruct (mul_static_count m B rng ys Hl (bits_perm _ _ P Hb)) as [_ ->].
  unfold ones, zeros. rewrite !(countb_perm _ _ _ P). reflexivity.
Qed.

Lemma below_full w rng B n : perm_seq w rng -> 0 <= B <= p2 w -> 0 <= n -> (p2 w | n) ->
  below rng B (Z.to_nat n) * p2 w = n * B.
Proof.
  intros HP HB Hn [k Hk]. pose proof (p2_pos w) as Hp.
  assert (0 <= k) by nia.
  replace (Z.to_nat n) with (Z.to_nat k * 2 ^ w)%nat.
  - rewrite (below_periods w rng B _ HP). rewrite Z2Nat.id by lia.
    replace (zclamp 0 (p2 w) B) with B by (unfold zclamp; lia). subst n. ring.
  - apply Nat2Z.inj. rewrite Nat2Z.inj_mul, p2_nat, !Z2Nat.id by lia. lia.
Qed.

Lemma mul_static_exact m w rng B xs : perm_seq w rng -> 0 <= B <= p2 w -> bits xs ->
  (p2 w | ones xs) -> (m = Bipolar -> (p2 w | zeros xs)) ->
  ones (outs (fsumul_static_step m B rng) fsumul_static_init xs) * p2 w =
  ones xs * B + match m with Unipolar => 0 | Bipolar => zeros xs * (p2 w - B) end.
Proof.
  intros HP HB Hb D1 D0. pose proof (perm_seq_len_pos w rng HP) as Hl.
  destruct (mul_static_count m B rng xs Hl Hb) as [_ ->].
  pose proof (below_full w rng B (ones xs) HP HB (ones_nonneg xs) D1) as E1.
  destruct m; [lia|].
  pose proof (below_full w rng B (zeros xs) HP HB (zeros_nonneg xs) (D0 eq_refl)) as E0. nia.
Qed.

Lemma ones_zeros_len xs : bits xs -> ones xs + zeros xs = zlen xs.
Proof.
  induction 1 as [|x l Hx Hl IH]; [reflexivity|].
  change (x :: l) with ([x] ++ l). rewrite ones_app, zeros_app. unfold zlen in *. rewrite app_length. cbn [length].
  destruct Hx as [->| ->]; [change (ones [0]) with 0; change (zeros [0]) with 1|change (ones [1]) with 1; change (zeros [1]) with 0]; lia.
Qed.

Lemma mul_static_product m w rng B xs : perm_seq w rng -> 0 <= B <= p2 w -> bits xs -> xs <> [] ->
  (p2 w | ones xs) -> (m = Bipolar -> (p2 w | zeros xs)) ->
  (value m (outs (fsumul_static_step m B rng) fsumul_static_init xs) == value m xs * grid_value m w B)%Q.
Proof.
  intros HP HB Hb Hne D1 D0.
  pose proof (mul_static_exact m w rng B xs HP HB Hb D1 D0) as E.
  pose proof (perm_seq_len_pos w rng HP) as Hl.
  destruct (mul_static_count m B rng xs Hl Hb) as [Ho _].
  set (o := outs (fsumul_static_step m B rng) fsumul_static_init xs) in *.
  assert (El : zlen o = zlen xs) by (unfold zlen, o; rewrite outs_length; reflexivity).
  assert (Hn : 0 < zlen xs) by (unfold zlen; destruct xs; [contradiction|cbn; lia]).
  pose proof (ones_zeros_len o Ho) as Z1. pose proof (ones_zeros_len xs Hb) as Z2.
  pose proof (p2_pos w) as Hp.
  assert (HnQ : ~ (inject_Z (zlen xs) == 0)%Q) by (unfold Qeq; cbn; lia).
  assert (HpQ : ~ (inject_Z (p2 w) == 0)%Q) by (unfold Qeq; cbn; lia).
  destruct m; unfold value, grid_value; rewrite El.
  - assert (EQ : (inject_Z (ones o) * inject_Z (p2 w) == inject_Z (ones xs) * inject_Z B)%Q)
      by (rewrite <- !inject_Z_mult; apply inject_Z_injective; lia).
    apply (Qmult_inj_r _ _ (inject_Z (p2 w) * inject_Z (zlen xs))).
    + intros C. apply Qmult_integral in C. tauto.
    + field_simplify; [|split; assumption|assumption]. rewrite EQ. field.
  - assert (EQ : (inject_Z (walk o) * inject_Z (p2 w) == inject_Z (walk xs) * (2 * inject_Z B - inject_Z (p2 w)))%Q).
    { change 2%Q with (inject_Z 2). unfold Qminus. rewrite <- inject_Z_opp, <- !inject_Z_mult, <- inject_Z_plus, <- inject_Z_mult.
      apply inject_Z_injective. unfold walk. nia. }
    apply (Qmult_inj_r _ _ (inject_Z (p2 w) * inject_Z (zlen xs))).
    + intros C. apply Qmult_integral in C. tauto.
    + field_simplify; [|split; assumption|assumption].
      setoid_replace (inject_Z (walk o) * inject_Z (p2 w))%Q with (inject_Z (walk xs) * (2 * inject_Z B - inject_Z (p2 w)))%Q by exact EQ.
      field.
Qed.

Lemma mul_static_sobol m ext w d B xs : (w <= sobol_maxbit)%nat ->
  dirvec_ok sobol_maxbit (ext_dirvec ext d) -> 0 <= B <= p2 w -> bits xs ->
  let o := outs (fsumul_static_step m B (rng_seq ext KSobol w d)) fsumul_static_init xs in
  match m with
  | Unipolar => Z.abs (ones o * p2 w - ones xs * B) <= Z.of_nat w * p2 w
  | Bipolar => Z.abs (ones o * p2 w - (ones xs * B + zeros xs * (p2 w - B))) <= 2 * Z.of_nat w * p2 w
  end.
Proof.
  intros Hw HV HB Hb. cbn zeta.
  pose proof (rng_sobol_perm ext w d Hw HV) as HP. pose proof (perm_seq_len_pos w _ HP) as Hl.
  destruct (mul_static_count m B _ xs Hl Hb) as [_ ->].
  pose proof (below_sobol ext w d B (Z.to_nat (ones xs)) Hw HV HB) as E1.
  pose proof (below_sobol ext w d B (Z.to_nat (zeros xs)) Hw HV HB) as E0.
  rewrite Z2Nat.id in E1 by apply ones_nonneg. rewrite Z2Nat.id in E0 by apply zeros_nonneg.
  pose proof (p2_pos w). destruct m; lia.
Qed.

Lemma shiftreg_out n h k : (1 <= n)%nat -> Forall mask_ok h -> (k < length h)%nat ->
  let past := recent n (enabled (firstn k h)) in
  let i := snd (nth k h (0, None, 0)) in
  nth k (outs shiftreg_step (shiftreg_init n) h) (0, 0) = (nth (Z.to_nat i) past 0, zsum past) /\
  length past = n /\
  (bits (enabled (firstn k h)) -> zsum past = ones past).
Proof.
  intros Hn Hm Hk. cbn zeta. rewrite (outs_nth _ _ _ _ (0, None, 0) _ Hk).
  rewrite shiftreg_contents; [|exact Hn|].
  - fold (recent n (enabled (firstn k h))). split; [|split].
    + destruct (nth k h (0, None, 0)) as [[x mk] i]. reflexivity.
    + unfold recent. apply lastn_length. rewrite app_length, alternating_length. lia.
    + intros Hb. apply zsum_ones. apply bits_lastn, bits_app; [apply alternating_bits|exact Hb].
  - apply Forall_forall. intros p Hp. rewrite Forall_forall in Hm. apply Hm.
    rewrite <- (firstn_skipn k h). apply in_or_app. left. exact Hp.
Qed.

(** Position i of [recent] is the value entered n-i calls ago. *)
Lemma recent_nth n past i : (i < n)%nat -> (n - i <= length past)%nat ->
  nth i (recent n past) 0 = nth (length past - (n - i)) past 0.
Proof.
  intros Hi Hl. unfold recent, lastn. rewrite app_length, alternating_length.
  replace (n + length past - n)%nat with (length past) by lia.
  assert (E : nth i (skipn (length past) (alternating n ++ past)) 0 = nth (length past + i) (alternating n ++ past) 0).
  { clear. generalize (alternating n ++ past). generalize (length past). intros m. induction m as [|m IH]; intros l; [reflexivity|].
    destruct l as [|x l]; [destruct i; reflexivity|]. cbn [skipn Nat.add nth]. apply IH. }
  rewrite E, app_nth2; rewrite alternating_length; [|lia]. f_equal. lia.
Qed.

Lemma shiftreg_masked n h1 h2 x i : (1 <= n)%nat -> Forall mask_ok h1 ->
  final shiftreg_step (shiftreg_init n) (h1 ++ (x, Some 0, i) :: h2) =
  final shiftreg_step (shiftreg_init n) (h1 ++ h2) /\
  outs shiftreg_step (final shiftreg_step (shiftreg_init n) (h1 ++ [(x, Some 0, i)])) h2 =
  outs shiftreg_step (final shiftreg_step (shiftreg_init n) h1) h2.
Proof.
  intros Hn Hm.
  assert (E : final shiftreg_step (shiftreg_init n) (h1 ++ [(x, Some 0, i)]) = final shiftreg_step (shiftreg_init n) h1).
  { rewrite !shiftreg_contents; try assumption.
    - rewrite enabled_snoc. cbn [snd fst]. rewrite app_nil_r. reflexivity.
    - apply Forall_app. split; [exact Hm|]. repeat constructor. }
  split; [|rewrite E; reflexivity].
  change ((x, Some 0, i) :: h2) with ([(x, Some 0, i)] ++ h2). rewrite app_assoc, final_app, E, <- final_app. reflexivity.
Qed.

Lemma jkff_all h : 
  (forall pre p post, h = pre ++ p :: post -> Forall no_force post ->
     (jk_set p -> final jkff_step jkff_init h = (1 + jk_toggles post) mod 2) /\
     (jk_reset p -> final jkff_step jkff_init h = jk_toggles post mod 2)) /\
  (Forall no_force h -> final jkff_step jkff_init h = jk_toggles h mod 2) /\
  (forall k, (k < length h)%nat ->
     nth k (outs jkff_step jkff_init h) 0 = final jkff_step jkff_init (firstn (S k) h)).
Proof.
  split; [|split].
  - intros pre p post -> Hn. split; intros Hp.
    + apply jkff_after_set; assumption.
    + rewrite (jkff_after_reset pre p post Hp Hn). reflexivity.
  - intros Hn. change jkff_init with 0. rewrite (jkff_parity 0 h (or_introl eq_refl) Hn). reflexivity.
  - intros k Hk. rewrite (outs_nth _ _ _ _ (0, 0) _ Hk).
    assert (E : firstn (S k) h = firstn k h ++ [nth k h (0, 0)]).
    { rewrite (nth_cut h k (0, 0) Hk) at 1. rewrite firstn_app, firstn_firstn, firstn_length.
      rewrite (Nat.min_r (S k) k), (Nat.min_l k (length h)) by lia.
      replace (S k - k)%nat with 1%nat by lia. reflexivity. }
    rewrite E, final_snoc. apply jkff_bit, jkff_final_bit.
Qed.

Lemma jkff_runs pre L : final jkff_step jkff_init pre = 0 ->
  let run := outs jkff_step (final jkff_step jkff_init pre) (repeat (1, 1) L) in
  run = map (fun x => 1 - x) (alternating L) /\ ones run = (Z.of_nat L + 1) / 2.
Proof. intros E. cbn zeta. rewrite E, jkff_run_ones. split; [reflexivity|apply alternating_ones]. Qed.

Lemma jkff_runs_start pre j : final jkff_step jkff_init [] = 0 /\ (j = 0 -> final jkff_step jkff_init (pre ++ [(j, 1)]) = 0).
Proof.
  split; [reflexivity|]. intros ->. rewrite final_snoc.
  destruct (jkff_step_cases _ (0, 1) (jkff_final_bit pre)) as (_ & _ & _ & C4). rewrite C4; [reflexivity|].
  split; cbn; [reflexivity|discriminate].
Qed.

Lemma signabs_all d xs : bits xs ->
  let o := outs (fsusignabs_step d) (fsusignabs_init d) xs in
  (forall k, (k < length xs)%nat ->
     bit (fst (nth k o (0, 0))) /\ bit (snd (nth k o (0, 0))) /\
     snd (nth k o (0, 0)) = Z.lxor (fst (nth k o (0, 0))) (nth k xs 0)) /\
  (in_signabs_range d xs ->
     (forall k, (k < length xs)%nat -> (fst (nth k o (0, 0)) = 1 <-> walk (firstn (S k) xs) < 0)) /\
     walk (map snd o) = Z.abs (walk xs) + 2 * returns_to_zero 0 xs).
Proof.
  intros Hb. cbn zeta. split.
  - intros k Hk. destruct (signabs_out d xs k Hb Hk) as (H1 & H2 & H3 & _). repeat split; assumption.
  - intros Hr. split.
    + intros k Hk. destruct (signabs_out d xs k Hb Hk) as (_ & _ & _ & H4). apply H4, Hr.
    + apply signabs_inv; assumption.
Qed.

Lemma relu_all d xs : bits xs ->
  let o := outs (fsurelu_step d) (fsurelu_init d) xs in
  bits o /\ Forall2 (fun x y => x <= y) xs o /\
  -1 <= walk o /\ reflected_walk xs <= walk o /\
  ((forall k, reflected_walk (firstn k xs) <= p2 d - 1) -> walk o = reflected_walk xs).
Proof.
  intros Hb. cbn zeta. destruct (relu_inv d xs Hb) as (_ & H1 & H2 & _). destruct (relu_lower d xs Hb) as [H3 H4].
  split; [exact H1|]. split; [exact H2|]. split; [exact H3|]. split; [exact H4|].
  intros Hr. apply relu_exact; assumption.
Qed.

Lemma forall2_le_walk_eq xs ys : bits xs -> bits ys -> Forall2 (fun x y => x <= y) xs ys ->
  walk xs <= walk ys /\ (walk xs = walk ys -> xs = ys).
Proof.
  intros Hx Hy H. revert Hx Hy. induction H as [|x y xs ys L H IH]; intros Hx Hy; [split; [lia|reflexivity]|].
  inversion Hx as [|? ? Bx Bxs]; subst. inversion Hy as [|? ? By Bys]; subst.
  destruct (IH Bxs Bys) as [I1 I2].
  change (x :: xs) with ([x] ++ xs). change (y :: ys) with ([y] ++ ys). rewrite !walk_app, !walk_bit by assumption.
  split; [lia|]. intros E. assert (x = y) by lia. assert (walk xs = walk ys) by lia. rewrite I2 by assumption. subst; reflexivity.
Qed.

Lemma dip_zero xs : (forall k, -1 <= walk (firstn k xs)) -> dip xs = 0.
Proof.
  intros H. unfold dip.
  destruct (max_prefixes_attained (fun p => -1 - walk p) xs) as (k & _ & E). cbv beta in E. specialize (H k). lia.
Qed.

Lemma relu_pass d xs : bits xs -> (forall k, -1 <= walk (firstn k xs) <= p2 d - 1) ->
  outs (fsurelu_step d) (fsurelu_init d) xs = xs.
Proof.
  intros Hb H.
  assert (R : forall k, reflected_walk (firstn k xs) = walk (firstn k xs)).
  { intros k. unfold reflected_walk. fold (dip (firstn k xs)). rewrite dip_zero; [cbn; lia|].
    intros j. rewrite firstn_firstn. apply H. }
  destruct (relu_all d xs Hb) as (H1 & H2 & _ & _ & H5).
  assert (E : walk (outs (fsurelu_step d) (fsurelu_init d) xs) = reflected_walk xs).
  { apply H5. intros k. rewrite R. apply H. }
  specialize (R (length xs)). rewrite firstn_all in R. rewrite R in E.
  symmetry. apply forall2_le_walk_eq; try assumption. symmetry; exact E.
Qed.

Lemma jkff_runs_full pre L : pre = [] \/ (exists p, pre = p ++ [(0, 1)]) ->
  let run := outs jkff_step (final jkff_step jkff_init pre) (repeat (1, 1) L) in
  run = map (fun x => 1 - x) (alternating L) /\ ones run = (Z.of_nat L + 1) / 2.
Proof.
  intros H. apply jkff_runs. destruct H as [->|[p ->]]; [reflexivity|].
  apply (jkff_runs_start p 0). reflexivity.
Qed.
