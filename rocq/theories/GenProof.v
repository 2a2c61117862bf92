(** Proofs about /repo/stream/gen.py. *)
From Coq Require Import String Ascii.
Require Import Verif.BaseLemmas Verif.GenModel Verif.SobolProof.
Open Scope Z_scope.

(** ** Windows of a cyclic list *)
Lemma seq_offset a n : seq a n = map (fun k => a + k)%nat (seq 0 n).
Proof.
  revert a; induction n as [|n IH]; intros a; [reflexivity|].
  cbn [seq map]. f_equal; [lia|]. rewrite (IH (S a)), <- seq_shift, map_map. apply map_ext. intros; lia.
Qed.

Lemma map_nth_seq (l : list Z) a n :
  (a + n <= length l)%nat -> map (fun k => nth (a + k) l 0) (seq 0 n) = firstn n (skipn a l).
Proof.
  intros H. revert a H; induction n as [|n IH]; intros a H; [reflexivity|].
  cbn [seq map]. rewrite <- seq_shift, map_map.
  assert (E : skipn a l = nth a l 0 :: skipn (S a) l).
  { clear IH. revert l H; induction a as [|a IHa]; intros [|x l] H; cbn [length] in H; try lia; [reflexivity|].
    cbn [skipn nth]. rewrite IHa by lia. reflexivity. }
  rewrite E. cbn [firstn]. f_equal; [rewrite Nat.add_0_r; reflexivity|].
  rewrite <- IH by lia. apply map_ext. intros k. f_equal. lia.
Qed.

Lemma map_nth_id (l : list Z) : map (fun k => nth k l 0) (seq 0 (length l)) = l.
Proof.
  pose proof (map_nth_seq l 0 (length l) ltac:(lia)) as H. cbn [Nat.add skipn] in H.
  rewrite H. apply firstn_all.
Qed.

Lemma window_perm (l : list Z) r : (r < length l)%nat ->
  Permutation (map (fun k => cyc l (r + k)) (seq 0 (length l))) l.
Proof.
  intros H. set (N := length l) in *.
  replace N with ((N - r) + r)%nat at 1 by lia.
  rewrite seq_app, map_app. cbn [Nat.add].
  assert (E1 : map (fun k => cyc l (r + k)) (seq 0 (N - r)) = skipn r l).
  { rewrite (map_ext_in _ (fun k => nth (r + k) l 0)).
    - rewrite map_nth_seq by (fold N; lia). apply firstn_all2. rewrite skipn_length. fold N. lia.
    - intros k Hk. apply in_seq in Hk. unfold cyc. fold N. rewrite Nat.mod_small by lia. reflexivity. }
  assert (E2 : map (fun k => cyc l (r + k)) (seq (N - r) r) = firstn r l).
  { pose proof (map_nth_seq l 0 r ltac:(fold N; lia)) as Hf. cbn [Nat.add skipn] in Hf. rewrite <- Hf.
    replace (seq (N - r) r) with (map (fun k => (N - r) + k)%nat (seq 0 r)).
    - rewrite map_map. apply map_ext_in. intros k Hk. apply in_seq in Hk.
      unfold cyc. fold N. replace (r + (N - r + k))%nat with (k + 1 * N)%nat by lia.
      rewrite Nat.mod_add by lia. rewrite Nat.mod_small by lia. reflexivity.
    - symmetry. apply seq_offset. }
  rewrite E1, E2. rewrite Permutation_app_comm. rewrite firstn_skipn. reflexivity.
Qed.

Lemma nthZ_cyc (l : list Z) (c : Z) : (0 < length l)%nat ->
  nthZ l (c mod zlen l) = cyc l (Z.to_nat (c mod zlen l)).
Proof.
  intros H. unfold nthZ, cyc. pose proof (Z.mod_pos_bound c (zlen l)) as B. unfold zlen in *.
  rewrite (Nat.mod_small (Z.to_nat (c mod Z.of_nat (length l)))) by lia. reflexivity.
Qed.

Lemma cyc_shift (l : list Z) (c : Z) (k : nat) : (0 < length l)%nat ->
  nthZ l ((c + Z.of_nat k) mod zlen l) = cyc l (Z.to_nat (c mod zlen l) + k).
Proof.
  intros H. unfold nthZ, cyc, zlen in *. f_equal.
  apply Nat2Z.inj. rewrite Nat2Z.inj_mod, Nat2Z.inj_add.
  pose proof (Z.mod_pos_bound c (Z.of_nat (length l)) ltac:(lia)) as B.
  pose proof (Z.mod_pos_bound (c + Z.of_nat k) (Z.of_nat (length l)) ltac:(lia)) as B2.
  rewrite !Z2Nat.id by lia. rewrite Z.add_mod_idemp_l by lia. reflexivity.
Qed.

Lemma bsgen_bit_bit B rng c : bit (bsgen_bit B rng c).
Proof. apply bit_b2z. Qed.

Lemma bsgen_bit_cyc B rng k : (0 < length rng)%nat -> bsgen_bit B rng (Z.of_nat k) = b2z (cyc rng k <? B).
Proof.
  intros H. unfold bsgen_bit.
  pose proof (cyc_shift rng 0 k H) as E. rewrite Z.add_0_l, Zmod_0_l in E. rewrite E.
  rewrite Z.gtb_ltb. reflexivity.
Qed.

Lemma ones_map_b2z {A} (f : A -> bool) l : ones (map (fun x => b2z (f x)) l) = countb f l.
Proof. unfold ones. rewrite countb_map. apply countb_ext. intros x _. destruct (f x); reflexivity. Qed.

Lemma bsgen_stream_bits B rng s n : bits (bsgen_stream B rng s n).
Proof. unfold bits, bsgen_stream. apply Forall_forall. intros x Hx. apply in_map_iff in Hx. destruct Hx as (k & <- & _). apply bit_b2z. Qed.

Lemma bsgen_stream_len B rng s n : zlen (bsgen_stream B rng s n) = Z.of_nat n.
Proof. unfold bsgen_stream, zlen. rewrite map_length, seq_length. reflexivity. Qed.

(** Any window of one sequence length sees every entry once. *)
Lemma bsgen_window_ones B rng start : (0 < length rng)%nat ->
  ones (bsgen_stream B rng start (length rng)) = countb (fun r => r <? B) rng.
Proof.
  intros H. unfold bsgen_stream, bsgen_bit.
  rewrite (ones_map_b2z (fun k => B >? nthZ rng ((start + Z.of_nat k) mod zlen rng))).
  pose proof (Z.mod_pos_bound start (zlen rng) ltac:(unfold zlen; lia)) as Hb.
  set (r := Z.to_nat (start mod zlen rng)).
  assert (Hr : (r < length rng)%nat) by (unfold r, zlen in *; lia).
  rewrite <- (countb_perm _ _ _ (window_perm rng r Hr)), countb_map.
  apply countb_ext. intros k _. rewrite cyc_shift by exact H. rewrite Z.gtb_ltb. reflexivity.
Qed.

Lemma perm_seq_len w l : perm_seq w l -> length l = (2 ^ w)%nat.
Proof. intros H. rewrite (Permutation_length H). unfold zrange. rewrite map_length, seq_length. reflexivity. Qed.
Lemma perm_seq_len_pos w l : perm_seq w l -> (0 < length l)%nat.
Proof. intros H. rewrite (perm_seq_len w l H). pose proof (Nat.pow_nonzero 2 w). lia. Qed.

Lemma perm_seq_count w l B : perm_seq w l -> countb (fun r => r <? B) l = zclamp 0 (p2 w) B.
Proof. intros H. rewrite (countb_perm _ _ _ H), countb_lt_zrange, p2_nat. reflexivity. Qed.

Lemma bsgen_exact w rng B start : perm_seq w rng ->
  ones (bsgen_stream B rng start (2 ^ w)) = zclamp 0 (p2 w) B.
Proof.
  intros H. rewrite <- (perm_seq_len w rng H), bsgen_window_ones by (apply (perm_seq_len_pos w), H).
  apply perm_seq_count, H.
Qed.

Lemma bsgen_stream_app B rng s n m :
  bsgen_stream B rng s (n + m) = bsgen_stream B rng s n ++ bsgen_stream B rng (s + Z.of_nat n) m.
Proof.
  unfold bsgen_stream. rewrite seq_app, map_app. f_equal. cbn [Nat.add].
  replace (seq n m) with (map (fun k => n + k)%nat (seq 0 m)).
  - rewrite map_map. apply map_ext. intros k. f_equal. lia.
  - symmetry. apply seq_offset.
Qed.

Lemma bsgen_exact_periods w rng B start k : perm_seq w rng ->
  ones (bsgen_stream B rng start (k * 2 ^ w)) = Z.of_nat k * zclamp 0 (p2 w) B.
Proof.
  intros H. revert start; induction k as [|k IH]; intros start; [reflexivity|].
  cbn [Nat.mul]. rewrite bsgen_stream_app, ones_app, bsgen_exact, IH by exact H. lia.
Qed.

Theorem bsgen_full : forall w rng B start, perm_seq w rng ->
  (0 <= B <= p2 w -> ones (bsgen_stream B rng start (2 ^ w)) = B) /\
  (B < 0 -> bsgen_stream B rng start (2 ^ w) = repeat 0 (2 ^ w)) /\
  (p2 w < B -> bsgen_stream B rng start (2 ^ w) = repeat 1 (2 ^ w)).
Proof.
  intros w rng B start H. pose proof (perm_seq_len_pos w rng H) as Hp.
  assert (Hr : forall c, 0 <= nthZ rng (c mod zlen rng) < p2 w).
  { intros c. pose proof (Z.mod_pos_bound c (zlen rng) ltac:(unfold zlen; lia)) as Hb.
    assert (Hin : In (nthZ rng (c mod zlen rng)) rng).
    { apply nth_In. unfold zlen in *. lia. }
    apply (Permutation_in _ H) in Hin. apply in_zrange in Hin. rewrite p2_nat in Hin. exact Hin. }
  assert (Hconst : forall b, (forall c, bsgen_bit B rng c = b) -> forall n s, bsgen_stream B rng s n = repeat b n).
  { intros b Hb n s. unfold bsgen_stream.
    transitivity (map (fun _ : nat => b) (seq 0 n)); [apply map_ext; intros; apply Hb|].
    generalize 0%nat. induction n as [|n IH]; intros a; [reflexivity|]. cbn. f_equal. apply IH. }
  repeat split; intros HB.
  - rewrite bsgen_exact by exact H. unfold zclamp. lia.
  - apply Hconst. intros c. unfold bsgen_bit. specialize (Hr c). destruct (Z.gtb_spec B (nthZ rng (c mod zlen rng))); [lia|reflexivity].
  - apply Hconst. intros c. unfold bsgen_bit. specialize (Hr c). destruct (Z.gtb_spec B (nthZ rng (c mod zlen rng))); [reflexivity|lia].
Qed.

(** ** Number sequences *)
Lemma p2_inject_nz w : ~ (inject_Z (p2 w) == 0)%Q.
Proof. pose proof (p2_pos w). unfold Qeq. cbn. lia. Qed.

Lemma map_floor_frac l w :
  map Qfloor (map (fun x => (inject_Z x / inject_Z (Z.of_nat (2 ^ w)) * inject_Z (Z.of_nat (2 ^ w)))%Q) l) = l.
Proof.
  rewrite map_map. rewrite <- (map_id l) at 2. apply map_ext. intros x.
  apply Qfloor_mul_div. rewrite p2_nat. pose proof (p2_pos w). lia.
Qed.

Lemma map_floor_inject l : map Qfloor (map inject_Z l) = l.
Proof. rewrite map_map. rewrite <- (map_id l) at 2. apply map_ext. intros x. apply Qfloor_Z. Qed.

Lemma rng_asc ext w d : rng_seq ext KAsc w d = zrange (2 ^ w).
Proof. unfold rng_seq. apply map_floor_frac. Qed.

Lemma rng_desc ext w d : rng_seq ext KDesc w d = rev (zrange (2 ^ w)).
Proof. unfold rng_seq. rewrite map_rev. f_equal. apply map_floor_frac. Qed.

Lemma rng_lfsr ext w d : rng_seq ext KLfsr w d = get_lfsr_seq w (ext_lfsr_next ext) (ext_lfsr_init ext).
Proof. unfold rng_seq. apply map_floor_inject. Qed.

Lemma rng_sys ext w d : rng_seq ext KSys w d = ext_randperm ext.
Proof. unfold rng_seq. apply map_floor_inject. Qed.

Lemma rng_sobol ext w d : (w <= sobol_maxbit)%nat ->
  rng_seq ext KSobol w d = map (sobw sobol_maxbit (ext_dirvec ext d) w) (seq 0 (2 ^ w)).
Proof.
  intros Hw. unfold rng_seq. rewrite sobol_points_map, !map_map. apply map_ext. intros i.
  unfold sobw. set (x := sob (ext_dirvec ext d) i).
  assert (E : (inject_Z x / inject_Z (p2 sobol_maxbit) * inject_Z (Z.of_nat (2 ^ w)) ==
               inject_Z x / inject_Z (p2 (sobol_maxbit - w)))%Q).
  { rewrite p2_nat. replace (p2 sobol_maxbit) with (p2 (sobol_maxbit - w) * p2 w)
      by (rewrite <- p2_add; f_equal; lia).
    rewrite inject_Z_mult. field. split; apply p2_inject_nz. }
  rewrite (Qfloor_comp _ _ E). pose proof (p2_pos (sobol_maxbit - w)) as Hp.
  apply Qfloor_spec.
  - apply Qle_shift_div_l; [apply inject_Z_pos, Hp|]. rewrite <- inject_Z_mult. apply inject_Z_le_iff.
    rewrite Z.mul_comm. apply Z.mul_div_le. exact Hp.
  - apply Qlt_shift_div_r; [apply inject_Z_pos, Hp|]. rewrite <- inject_Z_mult. apply inject_Z_lt_iff.
    rewrite Z.mul_comm. pose proof (Z.mul_succ_div_gt x _ Hp). lia.
Qed.

Lemma rng_sobol_perm ext w d : (w <= sobol_maxbit)%nat -> dirvec_ok sobol_maxbit (ext_dirvec ext d) ->
  perm_seq w (rng_seq ext KSobol w d).
Proof. intros Hw HV. rewrite rng_sobol by exact Hw. apply sobw_perm; assumption. Qed.

Lemma zrange_perm_seq w : perm_seq w (zrange (2 ^ w)).
Proof. apply Permutation_refl. Qed.
Lemma rev_perm_seq w : perm_seq w (rev (zrange (2 ^ w))).
Proof. apply Permutation_sym, Permutation_rev. Qed.

Theorem rng_permutation : forall ext name k w d,
  (w <= sobol_maxbit)%nat ->
  dirvec_ok sobol_maxbit (ext_dirvec ext d) ->
  perm_seq w (ext_randperm ext) ->
  rng_parse name = Ok k -> k <> KLfsr ->
  exists l, rng_new ext name w d = Ok l /\ perm_seq w l /\
    (k = KAsc -> l = zrange (2 ^ w)) /\ (k = KDesc -> l = rev (zrange (2 ^ w))).
Proof.
  intros ext name k w d Hw HV Hsys Hk Hn. exists (rng_seq ext k w d).
  unfold rng_new. rewrite Hk. cbn [bind]. repeat split.
  - destruct k; [apply rng_sobol_perm; assumption|rewrite rng_asc; apply zrange_perm_seq|
                 rewrite rng_desc; apply rev_perm_seq|contradiction|rewrite rng_sys; exact Hsys].
  - intros ->. apply rng_asc.
  - intros ->. apply rng_desc.
Qed.

(** ** LFSR *)
Lemma iter_state_shift next s n : iter_state next (next s) n = next (iter_state next s n).
Proof. induction n as [|n IH]; [reflexivity|]. cbn [iter_state]. rewrite IH. reflexivity. Qed.

Lemma lfsr_iter_map next s n : lfsr_iter next s n = map (fun i => lfsr_value (iter_state next s i)) (seq 0 n).
Proof.
  revert s; induction n as [|n IH]; intros s; [reflexivity|].
  cbn [lfsr_iter seq map]. f_equal. rewrite IH, <- seq_shift, map_map. apply map_ext. intros i.
  rewrite iter_state_shift. reflexivity.
Qed.

Lemma lfsr_value_range s : bits s -> 0 <= lfsr_value s < p2 (length s).
Proof.
  induction 1 as [|b r Hb Hr IH]; cbn [lfsr_value length]; [cbn; lia|].
  rewrite p2_S. destruct Hb as [-> | ->]; lia.
Qed.

Lemma lfsr_value_inj s1 s2 : bits s1 -> bits s2 -> length s1 = length s2 ->
  lfsr_value s1 = lfsr_value s2 -> s1 = s2.
Proof.
  intros H1; revert s2; induction H1 as [|b r Hb Hr IH]; intros [|b2 r2] H2 L E; cbn [length] in L; try lia; [reflexivity|].
  inversion H2 as [|? ? Hb2 Hr2]; subst. cbn [lfsr_value] in E.
  assert (Lr : length r = length r2) by lia.
  pose proof (lfsr_value_range r Hr) as R1. pose proof (lfsr_value_range r2 Hr2) as R2. rewrite <- Lr in *.
  assert (b = b2) by (destruct Hb as [-> | ->], Hb2 as [-> | ->]; lia). subst b2.
  f_equal. apply IH; [assumption|lia|lia].
Qed.

Lemma lfsr_value_pos s : bits s -> Exists (eq 1) s -> 0 < lfsr_value s.
Proof.
  induction 1 as [|b r Hb Hr IH]; intros He; [inversion He|].
  cbn [lfsr_value]. pose proof (lfsr_value_range r Hr). pose proof (p2_pos (length r)).
  inversion He as [? ? E|? ? E]; subst; [lia|]. specialize (IH E). destruct Hb as [-> | ->]; lia.
Qed.

Lemma lfsr_split w next s0 : (1 <= w)%nat -> lfsr_maximal w next s0 ->
  exists l, get_lfsr_seq w next s0 = l ++ [lfsr_value s0] /\ Permutation (0 :: l) (zrange (2 ^ w)) /\
            In (lfsr_value s0) l.
Proof.
  intros Hw (Hb & Hnz & Hinj & Hper).
  assert (H2 : (2 <= 2 ^ w)%nat).
  { change 2%nat with (2 ^ 1)%nat at 1. apply Nat.pow_le_mono_r; lia. }
  set (f := fun i => lfsr_value (iter_state next s0 i)).
  exists (map f (seq 0 (2 ^ w - 1))). unfold get_lfsr_seq. rewrite lfsr_iter_map. fold f.
  split; [|split].
  - replace (2 ^ w)%nat with (S (2 ^ w - 1)) at 1 by lia. rewrite seq_S, map_app. cbn [map Nat.add].
    unfold f at 2. rewrite Hper. reflexivity.
  - apply nodup_range_perm.
    + constructor.
      * intros Hin. apply in_map_iff in Hin. destruct Hin as (i & E & Hi). apply in_seq in Hi.
        pose proof (lfsr_value_pos _ (proj2 (Hb i)) (Hnz i ltac:(lia))). unfold f in E. lia.
      * apply NoDup_map_in; [|apply seq_NoDup]. intros i j Hi Hj E. apply in_seq in Hi. apply in_seq in Hj.
        apply Hinj; [lia|lia|]. apply lfsr_value_inj; [apply Hb|apply Hb| |exact E].
        rewrite (proj1 (Hb i)), (proj1 (Hb j)). reflexivity.
    + cbn [length]. rewrite map_length, seq_length. lia.
    + intros x Hx. rewrite p2_nat. destruct Hx as [<-|Hx]; [pose proof (p2_pos w); lia|].
      apply in_map_iff in Hx. destruct Hx as (i & <- & Hi). unfold f.
      pose proof (lfsr_value_range _ (proj2 (Hb i))) as R. rewrite (proj1 (Hb i)) in R. exact R.
  - apply in_map_iff. exists 0%nat. split; [reflexivity|]. apply in_seq. lia.
Qed.

Lemma lfsr_value_msb s : lfsr_value s = msb_value s.
Proof.
  unfold msb_value. assert (G : forall v, fold_left (fun v b => 2 * v + b) s v = v * p2 (length s) + lfsr_value s).
  { induction s as [|b r IH]; intros v; cbn [fold_left length lfsr_value]; [unfold p2; cbn; lia|]. rewrite IH, p2_S. ring. }
  rewrite (G 0). lia.
Qed.

Theorem lfsr_entries : forall w next s0, let l := get_lfsr_seq w next s0 in
  length l = (2 ^ w)%nat /\ forall i, (i < 2 ^ w)%nat -> nth i l 0 = msb_value (iter_state next s0 i).
Proof.
  intros w next s0 l. unfold l, get_lfsr_seq. rewrite lfsr_iter_map. split; [rewrite map_length, seq_length; reflexivity|]. intros i Hi.
  set (f := fun i => lfsr_value (iter_state next s0 i)). rewrite nth_indep with (d' := f 0%nat) by (rewrite map_length, seq_length; exact Hi).
  rewrite map_nth, seq_nth by exact Hi. apply lfsr_value_msb.
Qed.

Theorem lfsr_counts : forall w next s0, (1 <= w)%nat -> lfsr_maximal w next s0 ->
  let l := get_lfsr_seq w next s0 in
  ~ In 0 l /\
  (forall v, 1 <= v < p2 w -> v <> msb_value s0 -> countb (Z.eqb v) l = 1) /\
  countb (Z.eqb (msb_value s0)) l = 2 /\
  (forall B start, 1 <= B <= p2 w ->
     ones (bsgen_stream B l start (2 ^ w)) = if msb_value s0 <? B then B else B - 1).
Proof.
  intros w next s0 Hw Hm l. rewrite <- !lfsr_value_msb. destruct (lfsr_split w next s0 Hw Hm) as (l0 & E & HP & Hin).
  assert (Hnd : NoDup (0 :: l0)).
  { apply (Permutation_NoDup (Permutation_sym HP)), NoDup_zrange. }
  inversion Hnd as [|? ? H0 Hnd0]; subst.
  assert (Hs0 : lfsr_value s0 <> 0) by (intros E0; rewrite E0 in Hin; contradiction).
  assert (Hc : forall v, In v l0 -> countb (Z.eqb v) l0 = 1).
  { clear -Hnd0. intros v. induction Hnd0 as [|x r Hx Hr IH]; intros Hv; [inversion Hv|].
    cbn [countb]. destruct Hv as [->|Hv].
    - rewrite Z.eqb_refl. rewrite countb_false; [reflexivity|]. intros y Hy.
      apply Z.eqb_neq. intros ->. contradiction.
    - rewrite IH by exact Hv. destruct (Z.eqb_spec v x); [subst; contradiction|reflexivity]. }
  subst l. rewrite E. split; [|split; [|split]].
  - rewrite in_app_iff. intros [Hi|[Hi|[]]]; [contradiction|apply Hs0; exact Hi].
  - intros v Hv Hne. rewrite countb_app. cbn [countb].
    destruct (Z.eqb_spec v (lfsr_value s0)); [contradiction|].
    rewrite Hc; [reflexivity|].
    assert (Hv' : In v (0 :: l0)).
    { apply (Permutation_in _ (Permutation_sym HP)). apply in_zrange. rewrite p2_nat. lia. }
    destruct Hv' as [Hz|Hv']; [lia|exact Hv'].
  - rewrite countb_app. cbn [countb]. rewrite Z.eqb_refl, Hc by exact Hin. reflexivity.
  - intros B start HB.
    assert (Hl : length (l0 ++ [lfsr_value s0]) = (2 ^ w)%nat).
    { rewrite app_length. cbn [length]. pose proof (Permutation_length HP) as L. cbn [length] in L.
      unfold zrange in L. rewrite map_length, seq_length in L. lia. }
    rewrite <- Hl. rewrite bsgen_window_ones by (rewrite Hl; pose proof (Nat.pow_nonzero 2 w); lia).
    rewrite countb_app. cbn [countb].
    pose proof (countb_perm (fun r => r <? B) _ _ HP) as Hcp.
    rewrite countb_lt_zrange, p2_nat in Hcp. unfold zclamp in Hcp. cbn [countb] in Hcp.
    replace (0 <? B) with true in Hcp by (symmetry; apply Z.ltb_lt; lia).
    destruct (lfsr_value s0 <? B); lia.
Qed.

(** ** BinGen *)
Lemma p2Q_pos w : (0 < inject_Z (p2 w))%Q.
Proof. apply inject_Z_pos, p2_pos. Qed.

Lemma bingen_range m w s : src_ok m s -> 0 <= bingen m w s <= p2 w.
Proof.
  intros Hs. unfold bingen. pose proof (p2Q_pos w) as Hp.
  apply qround_between.
  - change (inject_Z 0) with 0%Q. destruct m; unfold src_ok in Hs.
    + apply Qmult_le_0_compat; lra.
    + apply Qmult_le_0_compat; [|lra]. setoid_replace ((s + 1) / 2)%Q with ((s + 1) * (1#2))%Q by field. lra.
  - setoid_replace (inject_Z (p2 w)) with (1 * inject_Z (p2 w))%Q at 2 by ring.
    destruct m; unfold src_ok in Hs; (apply Qmult_le_compat_r; [|lra]); [lra|].
    setoid_replace ((s + 1) / 2)%Q with ((s + 1) * (1#2))%Q by field. lra.
Qed.

Lemma bingen_mono m w s1 s2 : (s1 <= s2)%Q -> bingen m w s1 <= bingen m w s2.
Proof.
  intros Hs. unfold bingen. pose proof (p2Q_pos w) as Hp.
  apply qround_mono. destruct m; (apply Qmult_le_compat_r; [|lra]); [exact Hs|].
  apply Qmult_le_compat_r; [lra|discriminate].
Qed.

Lemma bingen_near m w s :
  (Qabs (grid_value m w (bingen m w s) - s) <= grid_step m w / 2)%Q.
Proof.
  pose proof (p2Q_pos w) as Hp. pose proof (p2_inject_nz w) as Hnz.
  unfold grid_value, grid_step, bingen.
  destruct m.
  - pose proof (qround_bounds (s * inject_Z (p2 w))) as B.
    set (r := inject_Z (qround (s * inject_Z (p2 w)))) in *. set (P := inject_Z (p2 w)) in *.
    apply Qabs_Qle_condition. split.
    + setoid_replace (- (1 / P / 2))%Q with ((s * P - (1#2)) / P - s)%Q by (field; exact Hnz).
      unfold Qminus. apply Qplus_le_compat; [|apply Qle_refl].
      apply Qmult_le_compat_r; [lra|]. apply Qlt_le_weak, Qinv_lt_0_compat, Hp.
    + setoid_replace (1 / P / 2)%Q with ((s * P + (1#2)) / P - s)%Q by (field; exact Hnz).
      unfold Qminus. apply Qplus_le_compat; [|apply Qle_refl].
      apply Qmult_le_compat_r; [lra|]. apply Qlt_le_weak, Qinv_lt_0_compat, Hp.
  - pose proof (qround_bounds ((s + 1) / 2 * inject_Z (p2 w))) as B.
    set (r := inject_Z (qround ((s + 1) / 2 * inject_Z (p2 w)))) in *. set (P := inject_Z (p2 w)) in *.
    assert (G : forall a b, (a <= b -> 2 * (a / P) - 1 - s <= 2 * (b / P) - 1 - s)%Q).
    { intros a b Hab. assert (a / P <= b / P)%Q.
      { apply Qmult_le_compat_r; [exact Hab|]. apply Qlt_le_weak, Qinv_lt_0_compat, Hp. }
      lra. }
    apply Qabs_Qle_condition. split.
    + setoid_replace (- (2 / P / 2))%Q with (2 * (((s + 1) / 2 * P - (1#2)) / P) - 1 - s)%Q by (field; exact Hnz).
      apply G. lra.
    + setoid_replace (2 / P / 2)%Q with (2 * (((s + 1) / 2 * P + (1#2)) / P) - 1 - s)%Q by (field; exact Hnz).
      apply G. lra.
Qed.

Lemma bingen_rounds m w s :
  rounds_to (match m with Unipolar => s | Bipolar => (s + 1) / 2 end * inject_Z (p2 w))%Q (bingen m w s).
Proof. unfold bingen. destruct m; apply qround_rounds. Qed.

Lemma bingen_grid m w b s : (s == grid_value m w b)%Q -> bingen m w s = b.
Proof.
  intros E. rewrite <- (qround_Z b). unfold bingen. apply qround_comp.
  pose proof (p2_inject_nz w) as Hnz. destruct m; rewrite E; cbn [grid_value]; field; exact Hnz.
Qed.

(** ** Temporal coding *)
Lemma bsgen_stream0 B rng n : (0 < length rng)%nat ->
  bsgen_stream B rng 0 n = map (fun k => b2z (cyc rng k <? B)) (seq 0 n).
Proof. intros H. unfold bsgen_stream. apply map_ext. intros k. rewrite Z.add_0_l. apply bsgen_bit_cyc, H. Qed.

Lemma map_const_seq (f : nat -> Z) c a n : (forall k, (a <= k < a + n)%nat -> f k = c) -> map f (seq a n) = repeat c n.
Proof.
  revert a; induction n as [|n IH]; intros a H; [reflexivity|].
  cbn [seq map repeat]. rewrite H by lia. f_equal. apply IH. intros k Hk. apply H. lia.
Qed.

Lemma len_zrange n : length (zrange n) = n.
Proof. unfold zrange. rewrite map_length, seq_length. reflexivity. Qed.

Lemma tc_stream w (b : nat) : (b <= 2 ^ w)%nat ->
  bsgen_stream (Z.of_nat b) (zrange (2 ^ w)) 0 (2 ^ w) = repeat 1 b ++ repeat 0 (2 ^ w - b).
Proof.
  intros Hb. pose proof (Nat.pow_nonzero 2 w ltac:(lia)) as Hp.
  rewrite bsgen_stream0 by (rewrite len_zrange; lia).
  assert (Es : seq 0 (2 ^ w) = seq 0 b ++ seq b (2 ^ w - b)).
  { etransitivity; [|exact (seq_app b (2 ^ w - b) 0)]. f_equal. lia. }
  rewrite Es, map_app. f_equal.
  - apply map_const_seq. intros k Hk. unfold cyc. rewrite len_zrange, Nat.mod_small, nth_zrange by lia.
    destruct (Z.ltb_spec (Z.of_nat k) (Z.of_nat b)); [reflexivity|lia].
  - apply map_const_seq. intros k Hk. unfold cyc. rewrite len_zrange, Nat.mod_small, nth_zrange by lia.
    destruct (Z.ltb_spec (Z.of_nat k) (Z.of_nat b)); [lia|reflexivity].
Qed.

Lemma tc10_stream w (b : nat) : (b <= 2 ^ w)%nat ->
  bsgen_stream (Z.of_nat b) (rev (zrange (2 ^ w))) 0 (2 ^ w) = repeat 0 (2 ^ w - b) ++ repeat 1 b.
Proof.
  intros Hb. pose proof (Nat.pow_nonzero 2 w ltac:(lia)) as Hp.
  rewrite bsgen_stream0 by (rewrite rev_length, len_zrange; lia).
  assert (Hn : forall k, (k < 2 ^ w)%nat -> cyc (rev (zrange (2 ^ w))) k = Z.of_nat (2 ^ w - 1 - k)).
  { intros k Hk. unfold cyc. rewrite rev_length, len_zrange, Nat.mod_small by lia.
    rewrite rev_nth by (rewrite len_zrange; lia). rewrite len_zrange, nth_zrange by lia. f_equal. lia. }
  assert (Es : seq 0 (2 ^ w) = seq 0 (2 ^ w - b) ++ seq (2 ^ w - b) b).
  { etransitivity; [|exact (seq_app (2 ^ w - b) b 0)]. f_equal. lia. }
  rewrite Es, map_app. f_equal.
  - apply map_const_seq. intros k Hk. rewrite Hn by lia.
    destruct (Z.ltb_spec (Z.of_nat (2 ^ w - 1 - k)) (Z.of_nat b)); [lia|reflexivity].
  - apply map_const_seq. intros k Hk. rewrite Hn by lia.
    destruct (Z.ltb_spec (Z.of_nat (2 ^ w - 1 - k)) (Z.of_nat b)); [reflexivity|lia].
Qed.

(** ** RawScale *)
Lemma qmax_ge_l a b : (a <= qmax a b)%Q. Proof. unfold qmax. qcases; lra. Qed.
Lemma qmax_ge_r a b : (b <= qmax a b)%Q. Proof. unfold qmax. qcases; lra. Qed.

Lemma qclamp_mono lo hi x y : (x <= y)%Q -> (qclamp lo hi x <= qclamp lo hi y)%Q.
Proof. intros H. unfold qclamp, qmin, qmax. qcases; lra. Qed.

Lemma qclamp_abs lo hi x : (Qabs (qclamp lo hi x) <= qmax (Qabs lo) (Qabs hi))%Q.
Proof.
  pose proof (qmax_ge_l (Qabs lo) (Qabs hi)) as H1. pose proof (qmax_ge_r (Qabs lo) (Qabs hi)) as H2.
  set (m := qmax (Qabs lo) (Qabs hi)) in *.
  apply Qabs_Qle_condition in H1. apply Qabs_Qle_condition in H2. apply Qabs_Qle_condition.
  unfold qclamp, qmin, qmax. qcases; lra.
Qed.

Definition qsorted (l : list Q) : Prop := StronglySorted Qle l.

Lemma qinsert_perm x l : Permutation (qinsert x l) (x :: l).
Proof.
  induction l as [|y r IH]; [reflexivity|]. cbn [qinsert]. destruct (Qle_bool x y); [reflexivity|].
  rewrite IH. apply perm_swap.
Qed.
Lemma qsort_perm l : Permutation (qsort l) l.
Proof. induction l as [|x r IH]; [reflexivity|]. cbn [qsort fold_right]. rewrite qinsert_perm. constructor. exact IH. Qed.

Lemma qinsert_sorted x l : qsorted l -> qsorted (qinsert x l).
Proof.
  induction 1 as [|y r Hr IH Hy]; cbn [qinsert]; [repeat constructor|].
  destruct (Qle_bool_spec x y).
  - constructor; [constructor; assumption|]. constructor; [assumption|].
    eapply Forall_impl; [|exact Hy]. intros z Hz. lra.
  - constructor; [exact IH|].
    apply Forall_forall. intros z Hz. apply (Permutation_in _ (qinsert_perm x r)) in Hz.
    destruct Hz as [<-|Hz]; [lra|]. rewrite Forall_forall in Hy. apply Hy, Hz.
Qed.
Lemma qsort_sorted l : qsorted (qsort l).
Proof. induction l as [|x r IH]; [constructor|]. apply qinsert_sorted, IH. Qed.

Lemma sorted_nth_le l i j : qsorted l -> (i <= j < length l)%nat -> (nth i l 0 <= nth j l 0)%Q.
Proof.
  intros Hs; revert i j; induction Hs as [|x r Hr IH Hx]; intros i j H; cbn [length] in H; [lia|].
  destruct i as [|i], j as [|j]; cbn [nth]; [apply Qle_refl| |lia|apply IH; lia].
  rewrite Forall_forall in Hx. apply Hx. apply nth_In. lia.
Qed.

Lemma qsort_length l : length (qsort l) = length l.
Proof. apply Permutation_length, qsort_perm. Qed.

Lemma sorted_min l x : l <> [] -> In x l -> (nth 0 (qsort l) 0 <= x)%Q.
Proof.
  intros Hl Hx. apply (Permutation_in _ (Permutation_sym (qsort_perm l))) in Hx.
  destruct (In_nth _ _ 0%Q Hx) as (i & Hi & <-). apply sorted_nth_le; [apply qsort_sorted|lia].
Qed.
Lemma sorted_max l x : In x l -> (x <= nth (length l - 1) (qsort l) 0)%Q.
Proof.
  intros Hx. apply (Permutation_in _ (Permutation_sym (qsort_perm l))) in Hx.
  destruct (In_nth _ _ 0%Q Hx) as (i & Hi & <-). apply sorted_nth_le; [apply qsort_sorted|].
  rewrite qsort_length in *. lia.
Qed.

(** A quantile of non-empty data at q in [0,1] lies between two data elements. *)
Lemma quantile_between raw q : raw <> [] -> (0 <= q <= 1)%Q ->
  exists a b, In a raw /\ In b raw /\ (a <= quantile raw q)%Q /\ (quantile raw q <= b)%Q.
Proof.
  intros Hr Hq. unfold quantile.
  assert (Hn : 0 <= zlen raw - 1) by (destruct raw; [contradiction|unfold zlen; cbn [length]; lia]).
  set (pos := (q * inject_Z (zlen raw - 1))%Q).
  assert (Hnq : (0 <= inject_Z (zlen raw - 1))%Q) by (change 0%Q with (inject_Z 0); apply inject_Z_le_iff, Hn).
  assert (Hpos : (0 <= pos <= inject_Z (zlen raw - 1))%Q) by (unfold pos; nra).
  pose proof (Qfloor_le pos) as F1. pose proof (Qlt_floor pos) as F2.
  pose proof (Qle_ceiling pos) as C1. pose proof (Qceiling_lt pos) as C2.
  assert (Fl : 0 <= Qfloor pos).
  { assert (inject_Z 0 < inject_Z (Qfloor pos + 1))%Q by (change (inject_Z 0) with 0%Q; lra). rewrite <- Zlt_Qlt in H. lia. }
  assert (Cu : Qceiling pos <= zlen raw - 1).
  { assert (inject_Z (Qceiling pos - 1) < inject_Z (zlen raw - 1))%Q by lra. rewrite <- Zlt_Qlt in H. lia. }
  assert (FC : Qfloor pos <= Qceiling pos).
  { assert (inject_Z (Qfloor pos) <= inject_Z (Qceiling pos))%Q by lra. rewrite <- Zle_Qle in H. exact H. }
  set (s := qsort raw). set (i := Z.to_nat (Qfloor pos)). set (j := Z.to_nat (Qceiling pos)).
  assert (Hij : (i <= j < length s)%nat) by (unfold i, j, s, zlen in *; rewrite qsort_length; lia).
  pose proof (sorted_nth_le s i j (qsort_sorted raw) Hij) as Hle.
  exists (nth i s 0%Q), (nth j s 0%Q).
  assert (Hins : forall k, (k < length s)%nat -> In (nth k s 0%Q) raw).
  { intros k Hk. apply (Permutation_in _ (qsort_perm raw)). apply nth_In. exact Hk. }
  split; [apply Hins; lia|]. split; [apply Hins; lia|].
  rewrite inject_Z_plus in F2. change (inject_Z 1) with 1%Q in F2.
  set (t := (pos - inject_Z (Qfloor pos))%Q) in *. assert (Ht : (0 <= t <= 1)%Q) by (unfold t; lra).
  set (a := nth i s 0%Q) in *. set (b := nth j s 0%Q) in *. nra.
Qed.

Lemma quantile_0 raw : raw <> [] -> (quantile raw 0 == nth 0 (qsort raw) 0)%Q.
Proof.
  intros Hr. unfold quantile.
  assert (E : (0 * inject_Z (zlen raw - 1) == inject_Z 0)%Q) by (change (inject_Z 0) with 0%Q; ring).
  assert (EF : Qfloor (0 * inject_Z (zlen raw - 1)) = 0) by (rewrite E; apply Qfloor_Z).
  rewrite EF. generalize (nth (Z.to_nat (Qceiling (0 * inject_Z (zlen raw - 1)))) (qsort raw) 0%Q). intros hi.
  rewrite E. change (inject_Z 0) with 0%Q. change (Z.to_nat 0) with 0%nat. ring.
Qed.

Lemma quantile_1 raw : raw <> [] -> (quantile raw 1 == nth (length raw - 1) (qsort raw) 0)%Q.
Proof.
  intros Hr. unfold quantile.
  assert (E : (1 * inject_Z (zlen raw - 1) == inject_Z (zlen raw - 1))%Q) by ring.
  assert (EF : Qfloor (1 * inject_Z (zlen raw - 1)) = zlen raw - 1) by (rewrite E; apply Qfloor_Z).
  rewrite EF. generalize (nth (Z.to_nat (Qceiling (1 * inject_Z (zlen raw - 1)))) (qsort raw) 0%Q). intros hi.
  rewrite E.
  replace (Z.to_nat (zlen raw - 1)) with (length raw - 1)%nat by (unfold zlen; lia). ring.
Qed.

Lemma rawscale_spec q raw :
  let lo := quantile raw ((1#2) - q / 2)%Q in
  let hi := quantile raw ((1#2) + q / 2)%Q in
  let sc := qmax (Qabs lo) (Qabs hi) in
  (~ (sc == 0)%Q -> rawscale q raw = Some (map (fun x => (qclamp lo hi x / sc)%Q) raw)) /\
  ((sc == 0)%Q -> rawscale q raw = None).
Proof.
  intros lo hi sc. unfold rawscale. fold lo hi sc. split; intros H.
  - destruct (Qeq_bool sc 0) eqn:E; [apply Qeq_bool_iff in E; contradiction|reflexivity].
  - apply Qeq_bool_iff in H. rewrite H. reflexivity.
Qed.

Lemma rawscale_some q raw out : rawscale q raw = Some out ->
  let lo := quantile raw ((1#2) - q / 2)%Q in
  let hi := quantile raw ((1#2) + q / 2)%Q in
  let sc := qmax (Qabs lo) (Qabs hi) in
  (0 < sc)%Q /\ out = map (fun x => (qclamp lo hi x / sc)%Q) raw.
Proof.
  intros H lo hi sc. unfold rawscale in H. fold lo hi sc in H.
  destruct (Qeq_bool sc 0) eqn:E; [discriminate|]. apply Qeq_bool_neq in E.
  pose proof (qmax_ge_l (Qabs lo) (Qabs hi)). pose proof (Qabs_nonneg lo). fold sc in H0.
  split; [lra|congruence].
Qed.

Lemma Qdiv_le_mono a b c : (0 < c)%Q -> (a <= b)%Q -> (a / c <= b / c)%Q.
Proof. intros Hc H. apply Qmult_le_compat_r; [exact H|]. apply Qlt_le_weak, Qinv_lt_0_compat, Hc. Qed.

Theorem rawscale_range : forall q raw out, rawscale q raw = Some out ->
  length out = length raw /\ Forall (fun y => -(1) <= y <= 1)%Q out /\
  (forall i j, (i < length raw)%nat -> (j < length raw)%nat ->
     (nth i raw 0 <= nth j raw 0)%Q -> (nth i out 0 <= nth j out 0)%Q).
Proof.
  intros q raw out H. destruct (rawscale_some q raw out H) as [Hsc ->].
  set (lo := quantile raw ((1#2) - q / 2)%Q) in *. set (hi := quantile raw ((1#2) + q / 2)%Q) in *.
  set (sc := qmax (Qabs lo) (Qabs hi)) in *.
  split; [apply map_length|split].
  - apply Forall_forall. intros y Hy. apply in_map_iff in Hy. destruct Hy as (x & <- & _).
    pose proof (qclamp_abs lo hi x) as Ha. fold sc in Ha. apply Qabs_Qle_condition in Ha.
    split.
    + setoid_replace (-(1))%Q with (- sc / sc)%Q by (field; lra). apply Qdiv_le_mono; lra.
    + setoid_replace 1%Q with (sc / sc)%Q by (field; lra). apply Qdiv_le_mono; lra.
  - intros i j Hi Hj Hle.
    assert (N : forall k, (k < length raw)%nat ->
              nth k (map (fun x => (qclamp lo hi x / sc)%Q) raw) 0%Q = (qclamp lo hi (nth k raw 0%Q) / sc)%Q).
    { intros k Hk. rewrite nth_indep with (d' := (fun x => (qclamp lo hi x / sc)%Q) 0%Q) by (rewrite map_length; exact Hk).
      apply (map_nth (fun x => (qclamp lo hi x / sc)%Q)). }
    rewrite !N by assumption. apply Qdiv_le_mono; [exact Hsc|]. apply qclamp_mono, Hle.
Qed.

Lemma max_abs_sorted raw : raw <> [] ->
  is_max_abs raw (qmax (Qabs (nth 0 (qsort raw) 0%Q)) (Qabs (nth (length raw - 1) (qsort raw) 0%Q))).
Proof.
  intros Hr. assert (L : (0 < length raw)%nat) by (destruct raw; [contradiction|cbn; lia]).
  set (a := nth 0 (qsort raw) 0%Q). set (b := nth (length raw - 1) (qsort raw) 0%Q).
  split.
  - assert (Ha : In a raw) by (apply (Permutation_in _ (qsort_perm raw)), nth_In; rewrite qsort_length; lia).
    assert (Hb : In b raw) by (apply (Permutation_in _ (qsort_perm raw)), nth_In; rewrite qsort_length; lia).
    unfold qmax. destruct (Qle_bool (Qabs a) (Qabs b)); [exists b|exists a]; split; try assumption; reflexivity.
  - apply Forall_forall. intros x Hx.
    pose proof (sorted_min raw x Hr Hx) as H1. pose proof (sorted_max raw x Hx) as H2. fold a in H1. fold b in H2.
    pose proof (qmax_ge_l (Qabs a) (Qabs b)) as M1. pose proof (qmax_ge_r (Qabs a) (Qabs b)) as M2.
    set (m := qmax (Qabs a) (Qabs b)) in *.
    apply Qabs_Qle_condition in M1. apply Qabs_Qle_condition in M2. apply Qabs_Qle_condition. lra.
Qed.

Lemma is_max_abs_unique raw m1 m2 : is_max_abs raw m1 -> is_max_abs raw m2 -> (m1 == m2)%Q.
Proof.
  intros [(x1 & I1 & E1) F1] [(x2 & I2 & E2) F2]. rewrite Forall_forall in F1, F2.
  apply F1 in I2. apply F2 in I1. lra.
Qed.

Lemma qclamp_comp lo lo' hi hi' x : (lo == lo')%Q -> (hi == hi')%Q -> (qclamp lo hi x == qclamp lo' hi' x)%Q.
Proof. intros H1 H2. unfold qclamp, qmin, qmax. qcases; lra. Qed.

Lemma qmax_comp a a' b b' : (a == a')%Q -> (b == b')%Q -> (qmax a b == qmax a' b')%Q.
Proof. intros H1 H2. unfold qmax. qcases; lra. Qed.

Lemma quantile_comp raw q q' : (q == q')%Q -> (quantile raw q == quantile raw q')%Q.
Proof.
  intros E. unfold quantile.
  assert (E' : (q * inject_Z (zlen raw - 1) == q' * inject_Z (zlen raw - 1))%Q) by (rewrite E; reflexivity).
  rewrite (Qfloor_comp _ _ E'), (Qceiling_comp _ _ E').
  generalize (nth (Z.to_nat (Qceiling (q' * inject_Z (zlen raw - 1)))) (qsort raw) 0%Q). intros hi.
  generalize (nth (Z.to_nat (Qfloor (q' * inject_Z (zlen raw - 1)))) (qsort raw) 0%Q). intros lo.
  generalize (inject_Z (Qfloor (q' * inject_Z (zlen raw - 1)))). intros f.
  rewrite E'. reflexivity.
Qed.

Theorem rawscale_full : forall raw m, raw <> [] -> is_max_abs raw m ->
  ((m == 0)%Q -> rawscale 1 raw = None) /\
  (~ (m == 0)%Q -> exists out, rawscale 1 raw = Some out /\ Forall2 (fun x y => (y == x / m)%Q) raw out).
Proof.
  intros raw m Hr Hm.
  pose proof (is_max_abs_unique _ _ _ Hm (max_abs_sorted raw Hr)) as Em.
  assert (El : (quantile raw ((1#2) - 1 / 2) == nth 0 (qsort raw) 0)%Q).
  { rewrite <- (quantile_0 raw Hr). apply quantile_comp. reflexivity. }
  assert (Eh : (quantile raw ((1#2) + 1 / 2) == nth (length raw - 1) (qsort raw) 0)%Q).
  { rewrite <- (quantile_1 raw Hr). apply quantile_comp. reflexivity. }
  set (a := nth 0 (qsort raw) 0%Q) in *. set (b := nth (length raw - 1) (qsort raw) 0%Q) in *.
  destruct (rawscale_spec 1 raw) as [S1 S2].
  set (lo := quantile raw ((1#2) - 1 / 2)%Q) in *. set (hi := quantile raw ((1#2) + 1 / 2)%Q) in *.
  assert (Es : (qmax (Qabs lo) (Qabs hi) == m)%Q).
  { rewrite Em. apply qmax_comp; [rewrite El|rewrite Eh]; reflexivity. }
  split; intros Hz.
  - apply S2. rewrite Es. exact Hz.
  - eexists. split; [apply S1; rewrite Es; exact Hz|].
    assert (G : forall l, incl l raw -> Forall2 (fun x y => (y == x / m)%Q) l
                (map (fun x => (qclamp lo hi x / qmax (Qabs lo) (Qabs hi))%Q) l)).
    { induction l as [|x l IH]; intros Hi; [constructor|]. cbn [map]. constructor.
      - rewrite Es. rewrite qclamp_id; [reflexivity| |].
        + rewrite El. apply sorted_min; [exact Hr|]. apply Hi. left; reflexivity.
        + rewrite Eh. apply sorted_max. apply Hi. left; reflexivity.
      - apply IH. intros y Hy. apply Hi. right; exact Hy. }
    apply G. apply incl_refl.
Qed.

(** ** Two streams from one sequence *)
Lemma bsgen_nested B1 B2 rng c : B1 <= B2 -> bsgen_bit B1 rng c <= bsgen_bit B2 rng c.
Proof. intros H. unfold bsgen_bit. destruct (Z.gtb_spec B1 (nthZ rng (c mod zlen rng))), (Z.gtb_spec B2 (nthZ rng (c mod zlen rng))); cbn [b2z]; lia. Qed.

Lemma bsgen_periodic B rng c k : bsgen_bit B rng (c + k * zlen rng) = bsgen_bit B rng c.
Proof. unfold bsgen_bit. rewrite Z_mod_plus_full. reflexivity. Qed.

(** ** Bundles used by the property files *)
Lemma lfsr_not_exact w next s0 : (1 <= w)%nat -> lfsr_maximal w next s0 ->
  exists B, 0 <= B <= p2 w /\
    forall start, ones (bsgen_stream B (get_lfsr_seq w next s0) start (2 ^ w)) <> B.
Proof.
  intros Hw Hm. destruct (lfsr_counts w next s0 Hw Hm) as (_ & _ & _ & H). rewrite <- lfsr_value_msb in H.
  pose proof (p2_pos w) as Hp. exists 1. split; [lia|]. intros start. rewrite H by lia.
  assert (0 < lfsr_value s0).
  { destruct Hm as (H1 & H2 & _). apply lfsr_value_pos; [apply (H1 0%nat)|].
    apply (H2 0%nat). pose proof (Nat.pow_le_mono_r 2 1 w). change (2 ^ 1)%nat with 2%nat in H0. lia. }
  destruct (Z.ltb_spec (lfsr_value s0) 1); lia.
Qed.

Lemma bingen_all m w :
  (forall s, src_ok m s -> 0 <= bingen m w s <= p2 w) /\
  (forall s, rounds_to (match m with Unipolar => s | Bipolar => (s + 1) / 2 end * inject_Z (p2 w))%Q (bingen m w s)) /\
  (forall s, (Qabs (grid_value m w (bingen m w s) - s) <= grid_step m w / 2)%Q) /\
  (forall s1 s2, (s1 <= s2)%Q -> bingen m w s1 <= bingen m w s2) /\
  (forall b s, (s == grid_value m w b)%Q -> bingen m w s = b).
Proof.
  split; [exact (bingen_range m w)|]. split; [exact (bingen_rounds m w)|].
  split; [exact (bingen_near m w)|]. split; [exact (bingen_mono m w)|exact (bingen_grid m w)].
Qed.

Lemma temporal_shape w (b : nat) ext d : (b <= 2 ^ w)%nat ->
  bsgen_stream (Z.of_nat b) (rng_seq ext KAsc w d) 0 (2 ^ w) = repeat 1 b ++ repeat 0 (2 ^ w - b) /\
  bsgen_stream (Z.of_nat b) (rng_seq ext KDesc w d) 0 (2 ^ w) = repeat 0 (2 ^ w - b) ++ repeat 1 b.
Proof. intros H. rewrite rng_asc, rng_desc. split; [apply tc_stream|apply tc10_stream]; exact H. Qed.

Lemma rawscale_defined q raw :
  let lo := quantile raw ((1#2) - q / 2)%Q in
  let hi := quantile raw ((1#2) + q / 2)%Q in
  (rawscale q raw = None <-> (lo == 0 /\ hi == 0)%Q) /\
  (forall out, rawscale q raw = Some out ->
     Forall2 (fun x y => (y == qclamp lo hi x / qmax (Qabs lo) (Qabs hi))%Q) raw out).
Proof.
  cbn zeta. pose proof (rawscale_spec q raw) as [H1 H2].
  set (lo := quantile raw ((1#2) - q / 2)%Q) in *. set (hi := quantile raw ((1#2) + q / 2)%Q) in *.
  assert (Hz : (qmax (Qabs lo) (Qabs hi) == 0 <-> lo == 0 /\ hi == 0)%Q).
  { pose proof (qmax_ge_l (Qabs lo) (Qabs hi)). pose proof (qmax_ge_r (Qabs lo) (Qabs hi)).
    split.
    - intros E. pose proof (Qabs_nonneg lo). pose proof (Qabs_nonneg hi).
      split; [apply Qabs_Qle_condition in H|apply Qabs_Qle_condition in H0]; lra.
    - intros [E1 E2]. rewrite (qmax_comp (Qabs lo) 0 (Qabs hi) 0); [reflexivity|rewrite E1; reflexivity|rewrite E2; reflexivity]. }
  split.
  - split.
    + intros E. apply Hz. destruct (Qeq_dec (qmax (Qabs lo) (Qabs hi)) 0) as [E0|N0]; [exact E0|].
      rewrite (H1 N0) in E. discriminate.
    + intros E. apply H2, Hz, E.
  - intros out E. destruct (Qeq_dec (qmax (Qabs lo) (Qabs hi)) 0) as [E0|N0].
    + rewrite (H2 E0) in E. discriminate.
    + pose proof (eq_trans (eq_sym E) (H1 N0)) as E'. clearbody lo hi. clear H1 H2 E Hz N0.
      assert (Eo : out = map (fun x => (qclamp lo hi x / qmax (Qabs lo) (Qabs hi))%Q) raw) by congruence.
      rewrite Eo. clear. induction raw as [|x r IH]; constructor; [reflexivity|exact IH].
Qed.
