(** Proofs about /repo/kernel/add.py and sigmoid.py. *)
From Coq Require Import Qpower.
Require Import Verif.BaseLemmas Verif.AddModel.
Open Scope Z_scope.

Lemma qpow2_pos n : (0 < qpow2 n)%Q.
Proof. unfold qpow2. apply Qpower_0_lt. reflexivity. Qed.

Lemma qpow2_p2 n : 0 <= n -> (qpow2 n == inject_Z (2 ^ n))%Q.
Proof. intros H. unfold qpow2. symmetry. apply (Zpower_Qpower 2 n H). Qed.

Lemma qge_true a b : qge a b = true <-> (b <= a)%Q.
Proof. unfold qge. apply Qle_bool_iff. Qed.
Lemma qge_false a b : qge a b = false <-> (a < b)%Q.
Proof. unfold qge. destruct (Qle_bool_spec b a); split; intros; try discriminate; try reflexivity; lra. Qed.
Lemma qge_comp a a' b b' : (a == a')%Q -> (b == b')%Q -> qge a b = qge a' b'.
Proof. intros H1 H2. unfold qge. destruct (Qle_bool_spec b a), (Qle_bool_spec b' a'); try reflexivity; lra. Qed.
Lemma qclamp_compx lo hi x x' : (x == x')%Q -> (qclamp lo hi x == qclamp lo hi x')%Q.
Proof. intros H. unfold qclamp, qmin, qmax. qcases; lra. Qed.

(** ** The lane machine after resolution *)
Definition add_lane (lim s off : Q) (acc : Q) (col : list Z) : Q * Z :=
  acc_step lim s (inject_Z (zsum col) - off) acc.

Definition add_state (c : fsuadd_cfg) (e : Z) (s off acc : Q) : fsuadd_st :=
  {| fs_entry := Some e; fs_scale := s; fs_offset := off; fs_acc := acc; fs_first := false |}.

Lemma fsuadd_call_after c e s off acc col sc en :
  fsuadd_call c (add_state c e s off acc) (col, sc, en) =
  (add_state c e s off (fst (add_lane (acc_lim (fa_depth c)) s off acc col)),
   snd (add_lane (acc_lim (fa_depth c)) s off acc col)).
Proof.
  unfold fsuadd_call, fsuadd_resolve, add_state, add_lane. cbn [fs_first fs_scale fs_offset fs_acc fs_entry].
  destruct (acc_step _ _ _ _) as [acc' o]. reflexivity.
Qed.

Lemma fsuadd_run_after c e s off acc calls :
  outs (fsuadd_call c) (add_state c e s off acc) calls =
  outs (add_lane (acc_lim (fa_depth c)) s off) acc (map (fun x => fst (fst x)) calls) /\
  final (fsuadd_call c) (add_state c e s off acc) calls =
  add_state c e s off (final (add_lane (acc_lim (fa_depth c)) s off) acc (map (fun x => fst (fst x)) calls)).
Proof.
  revert acc; induction calls as [|[[col sc] en] calls IH]; intros acc; [split; reflexivity|].
  cbn [map fst]. rewrite !outs_cons, !final_cons, fsuadd_call_after. cbn [fst snd].
  destruct (IH (fst (add_lane (acc_lim (fa_depth c)) s off acc col))) as [H1 H2].
  rewrite H1, H2. split; reflexivity.
Qed.

Lemma fsuadd_first c col sc en :
  let e := resolved_entry en (fa_entry c) (zlen col) in
  let s := resolved_scale sc (fa_scale c) e in
  let off := mode_offset (fa_mode c) e s in
  fsuadd_call c (fsuadd_init c) (col, sc, en) = fsuadd_call c (add_state c e s off 0) (col, sc, en).
Proof.
  cbn zeta. unfold fsuadd_call, fsuadd_resolve, fsuadd_init, add_state, resolved_entry, resolved_scale, mode_offset.
  cbn [fs_first fs_scale fs_offset fs_acc fs_entry].
  destruct en, sc, (fa_entry c), (fa_scale c), (fa_mode c); reflexivity.
Qed.

Lemma fsuadd_run c col sc en calls :
  let e := resolved_entry en (fa_entry c) (zlen col) in
  let s := resolved_scale sc (fa_scale c) e in
  let off := mode_offset (fa_mode c) e s in
  outs (fsuadd_call c) (fsuadd_init c) ((col, sc, en) :: calls) =
  outs (add_lane (acc_lim (fa_depth c)) s off) 0%Q (col :: map (fun x => fst (fst x)) calls) /\
  final (fsuadd_call c) (fsuadd_init c) ((col, sc, en) :: calls) =
  add_state c e s off (final (add_lane (acc_lim (fa_depth c)) s off) 0%Q (col :: map (fun x => fst (fst x)) calls)).
Proof.
  cbn zeta. pose proof (fsuadd_first c col sc en) as F. cbn zeta in F.
  set (e := resolved_entry en (fa_entry c) (zlen col)) in *.
  set (s := resolved_scale sc (fa_scale c) e) in *.
  set (off := mode_offset (fa_mode c) e s) in *.
  pose proof (fsuadd_run_after c e s off 0%Q ((col, sc, en) :: calls)) as [R1 R2].
  rewrite outs_cons in *. rewrite final_cons in *. rewrite F. split; [exact R1|exact R2].
Qed.

(** A step history is a call history without arguments. *)
Lemma fsuadd_step_call c st cols :
  run (fsuadd_step c) st cols = run (fsuadd_call c) st (map (fun x => (x, None, None)) cols).
Proof.
  revert st; induction cols as [|y ys IH]; intros st; [reflexivity|].
  cbn [map run]. unfold fsuadd_step at 1. destruct (fsuadd_call c st (y, None, None)) as [s1 o]. rewrite IH. reflexivity.
Qed.

Lemma fsuadd_step_run c col cols :
  let e := resolved_entry None (fa_entry c) (zlen col) in
  let s := resolved_scale None (fa_scale c) e in
  let off := mode_offset (fa_mode c) e s in
  outs (fsuadd_step c) (fsuadd_init c) (col :: cols) =
  outs (add_lane (acc_lim (fa_depth c)) s off) 0%Q (col :: cols) /\
  fs_acc (final (fsuadd_step c) (fsuadd_init c) (col :: cols)) =
  final (add_lane (acc_lim (fa_depth c)) s off) 0%Q (col :: cols).
Proof.
  cbn zeta. unfold outs at 1, final at 1. rewrite !fsuadd_step_call. cbn [map].
  destruct (fsuadd_run c col None None (map (fun x => (x, None, None)) cols)) as [R1 R2].
  fold (outs (fsuadd_call c) (fsuadd_init c) ((col, None, None) :: map (fun x => (x, None, None)) cols)).
  fold (final (fsuadd_call c) (fsuadd_init c) ((col, None, None) :: map (fun x => (x, None, None)) cols)).
  rewrite R1, R2. rewrite map_map. cbn [fst]. rewrite map_id. split; reflexivity.
Qed.

(** Latching. *)
Lemma fsuadd_latch c col sc en calls :
  let e := resolved_entry en (fa_entry c) (zlen col) in
  let s := resolved_scale sc (fa_scale c) e in
  let c' := {| fa_mode := fa_mode c; fa_scale := Some s; fa_depth := fa_depth c; fa_entry := Some e |} in
  outs (fsuadd_call c) (fsuadd_init c) ((col, sc, en) :: calls) =
  outs (fsuadd_step c') (fsuadd_init c') (col :: map (fun x => fst (fst x)) calls).
Proof.
  cbn zeta.
  destruct (fsuadd_run c col sc en calls) as [R1 _]. rewrite R1.
  set (e := resolved_entry en (fa_entry c) (zlen col)).
  set (s := resolved_scale sc (fa_scale c) e).
  set (c' := {| fa_mode := fa_mode c; fa_scale := Some s; fa_depth := fa_depth c; fa_entry := Some e |}).
  destruct (fsuadd_step_run c' col (map (fun x => fst (fst x)) calls)) as [R2 _]. rewrite R2. reflexivity.
Qed.

(** ** The lane machine *)
Lemma total_snoc cols col : total_ones (cols ++ [col]) = total_ones cols + ones col.
Proof. unfold total_ones. rewrite map_app, zsum_app. cbn [map zsum]. lia. Qed.

Lemma add_lane_out_bit lim s off acc col : bit (snd (add_lane lim s off acc col)).
Proof. unfold add_lane, acc_step. cbn [snd]. apply bit_b2z. Qed.

Lemma add_lane_outs_bits lim s off acc cols : bits (outs (add_lane lim s off) acc cols).
Proof.
  revert acc; induction cols as [|c r IH]; intros acc; [constructor|].
  rewrite outs_cons. constructor; [apply add_lane_out_bit|apply IH].
Qed.

Lemma add_lane_range lim s off acc col : (0 <= lim)%Q ->
  (- lim <= fst (add_lane lim s off acc col) /\ fst (add_lane lim s off acc col) <= lim)%Q.
Proof. intros H. unfold add_lane, acc_step. cbn [fst]. apply qclamp_range. lra. Qed.

Lemma add_final_range lim s off cols : (0 <= lim)%Q ->
  (- lim <= final (add_lane lim s off) 0 cols /\ final (add_lane lim s off) 0 cols <= lim)%Q.
Proof.
  intros H. destruct cols as [|c r] using rev_ind; [cbn; lra|].
  rewrite final_snoc. apply add_lane_range, H.
Qed.

Lemma add_dead lim s off cols : (lim < s)%Q -> (0 <= lim)%Q -> forall acc,
  outs (add_lane lim s off) acc cols = repeat 0 (length cols).
Proof.
  intros Hs Hl. induction cols as [|c r IH]; intros acc; [reflexivity|].
  rewrite outs_cons. cbn [length repeat]. f_equal; [|apply IH].
  unfold add_lane, acc_step. cbn [snd].
  pose proof (qclamp_range (- lim) lim (acc + (inject_Z (zsum c) - off)) ltac:(lra)) as [_ H].
  rewrite (proj2 (qge_false _ s)); [reflexivity|]. lra.
Qed.

(** One step without clamping. *)
Lemma add_lane_free lim s off acc col : (0 < s)%Q ->
  let pre := (acc + (inject_Z (zsum col) - off))%Q in
  (- lim <= pre)%Q -> (pre <= lim)%Q ->
  let o := snd (add_lane lim s off acc col) in
  (fst (add_lane lim s off acc col) == pre - inject_Z o * s)%Q /\
  (o = 1 /\ (s <= pre)%Q \/ o = 0 /\ (pre < s)%Q).
Proof.
  intros Hs pre H1 H2. unfold add_lane, acc_step. cbn [fst snd]. fold pre.
  pose proof (qclamp_id (- lim) lim pre H1 H2) as E.
  rewrite (qge_comp _ pre s s E (Qeq_refl s)).
  destruct (qge pre s) eqn:G; cbn [b2z].
  - apply qge_true in G. split; [|left; split; [reflexivity|exact G]].
    change (inject_Z 1) with 1%Q.
    rewrite qclamp_id; rewrite ?E; [ring|lra|lra].
  - apply qge_false in G. split; [|right; split; [reflexivity|exact G]].
    change (inject_Z 0) with 0%Q.
    rewrite qclamp_id; rewrite ?E; [ring|lra|lra].
Qed.

Definition content (s off : Q) (n : Z) (tot out : Z) : Q :=
  (inject_Z tot - inject_Z n * off - s * inject_Z out)%Q.

Lemma content_step s off n tot out x o :
  (content s off (n + 1) (tot + x) (out + o) == content s off n tot out + (inject_Z x - off) - inject_Z o * s)%Q.
Proof. unfold content. rewrite !inject_Z_plus. change (inject_Z 1) with 1%Q. ring. Qed.

(** Conservation while the unclamped content stays in range (C14). *)
Lemma add_conserve lim s off cols : (0 < s)%Q -> Forall bits cols ->
  (forall pre col post, cols = pre ++ col :: post ->
     let q := content s off (zlen pre + 1) (total_ones (pre ++ [col])) (ones (outs (add_lane lim s off) 0%Q pre)) in
     (- lim <= q /\ q <= lim)%Q) ->
  (final (add_lane lim s off) 0 cols ==
   content s off (zlen cols) (total_ones cols) (ones (outs (add_lane lim s off) 0%Q cols)))%Q.
Proof.
  intros Hs. induction cols as [|col cols IH] using rev_ind; intros Hb Hrange.
  - cbn. unfold content, Qeq. cbn. lia.
  - apply Forall_app in Hb. destruct Hb as [Hb Hc]. inversion Hc as [|? ? Hc1 _]; subst.
    assert (IH' := IH Hb). clear IH.
    assert (Hr' : forall pre c post, cols = pre ++ c :: post ->
       let q := content s off (zlen pre + 1) (total_ones (pre ++ [c])) (ones (outs (add_lane lim s off) 0%Q pre)) in
       (- lim <= q /\ q <= lim)%Q).
    { intros pre c post E. apply (Hrange pre c (post ++ [col])). rewrite E, <- app_assoc. reflexivity. }
    specialize (IH' Hr').
    specialize (Hrange cols col [] eq_refl). cbn zeta in Hrange.
    rewrite final_snoc, outs_snoc, total_snoc, zlen_snoc in *.
    set (acc := final (add_lane lim s off) 0%Q cols) in *.
    set (O := ones (outs (add_lane lim s off) 0%Q cols)) in *.
    rewrite (ones_app (outs (add_lane lim s off) 0%Q cols)). fold O. rewrite (ones_bit _ (add_lane_out_bit lim s off acc col)).
    assert (Ep : (acc + (inject_Z (zsum col) - off) == content s off (zlen cols + 1) (total_ones cols + ones col) O)%Q).
    { rewrite IH', (zsum_ones _ Hc1). unfold content. rewrite !inject_Z_plus. change (inject_Z 1) with 1%Q. ring. }
    destruct (add_lane_free lim s off acc col Hs) as [F1 _]; [rewrite Ep; lra|rewrite Ep; lra|].
    rewrite F1, Ep. unfold content. rewrite !inject_Z_plus. ring.
Qed.

(** Exact floor when scale >= every column contribution. *)
Lemma add_floor lim s off cols : (0 < s)%Q -> Forall bits cols ->
  Forall (fun col => (0 <= inject_Z (ones col) - off /\ inject_Z (ones col) - off <= s)%Q) cols ->
  (2 * s <= lim)%Q ->
  let acc := final (add_lane lim s off) 0%Q cols in
  let O := ones (outs (add_lane lim s off) 0%Q cols) in
  (0 <= acc /\ acc < s)%Q /\ (acc == content s off (zlen cols) (total_ones cols) O)%Q.
Proof.
  intros Hs Hb Hd Hlim. induction cols as [|col cols IH] using rev_ind.
  - cbn. split; [lra|]. unfold content, Qeq. cbn. lia.
  - apply Forall_app in Hb. destruct Hb as [Hb Hc]. inversion Hc as [|? ? Hc1 _]; subst.
    apply Forall_app in Hd. destruct Hd as [Hd Hd1]. inversion Hd1 as [|? ? Hd2 _]; subst.
    destruct (IH Hb Hd) as [Ha Ec]. cbn zeta.
    rewrite final_snoc, outs_snoc, total_snoc, zlen_snoc.
    set (acc := final (add_lane lim s off) 0%Q cols) in *.
    set (O := ones (outs (add_lane lim s off) 0%Q cols)) in *.
    rewrite (ones_app (outs (add_lane lim s off) 0%Q cols)). fold O. rewrite (ones_bit _ (add_lane_out_bit lim s off acc col)).
    pose proof (zsum_ones _ Hc1) as Ez.
    destruct (add_lane_free lim s off acc col Hs) as [F1 F2]; [rewrite Ez; lra|rewrite Ez; lra|].
    rewrite Ez in *. split.
    + rewrite F1. destruct F2 as [[-> F2]|[-> F2]]; [change (inject_Z 1) with 1%Q|change (inject_Z 0) with 0%Q]; lra.
    + rewrite F1. generalize (snd (add_lane lim s off acc col)). intros o.
      rewrite Ec. unfold content. rewrite !inject_Z_plus. change (inject_Z 1) with 1%Q. ring.
Qed.

Lemma floor_of_content s off n tot O acc : (0 < s)%Q -> (0 <= acc /\ acc < s)%Q ->
  (acc == content s off n tot O)%Q -> O = Qfloor ((inject_Z tot - inject_Z n * off) / s).
Proof.
  intros Hs [Ha1 Ha2] E. symmetry. apply Qfloor_spec.
  - apply Qle_shift_div_l; [exact Hs|]. unfold content in E. lra.
  - apply Qlt_shift_div_r; [exact Hs|]. unfold content in E. rewrite inject_Z_plus. change (inject_Z 1) with 1%Q. lra.
Qed.

(** Integer scale = number of entries, offset zero: the tight bound 2*scale-1. *)
Lemma add_exact_int lim e off cols : 0 < e -> (off == 0)%Q -> Forall bits cols ->
  Forall (fun col => zlen col = e) cols ->
  (inject_Z (2 * e - 1) <= lim)%Q ->
  let s := inject_Z e in
  let O := ones (outs (add_lane lim s off) 0%Q cols) in
  (final (add_lane lim s off) 0 cols == inject_Z (total_ones cols - e * O))%Q /\
  0 <= total_ones cols - e * O < e.
Proof.
  intros He Hoff Hb Hl Hlim. cbn zeta.
  assert (HsQ : (0 < inject_Z e)%Q) by (apply inject_Z_pos, He).
  induction cols as [|col cols IH] using rev_ind.
  - cbn. split; [unfold Qeq; cbn; lia|unfold total_ones; cbn; lia].
  - apply Forall_app in Hb. destruct Hb as [Hb Hc]. inversion Hc as [|? ? Hc1 _]; subst.
    apply Forall_app in Hl. destruct Hl as [Hl Hl1]. inversion Hl1 as [|? ? Hl2 _]; subst.
    destruct (IH Hb Hl) as [Ec Hr].
    set (e := zlen col) in *.
    rewrite final_snoc, outs_snoc, total_snoc.
    set (acc := final (add_lane lim (inject_Z e) off) 0%Q cols) in *.
    set (O := ones (outs (add_lane lim (inject_Z e) off) 0%Q cols)) in *.
    rewrite (ones_app (outs (add_lane lim (inject_Z e) off) 0%Q cols)). fold O.
    rewrite (ones_bit _ (add_lane_out_bit lim (inject_Z e) off acc col)).
    pose proof (zsum_ones _ Hc1) as Ez.
    pose proof (ones_nonneg col) as Hn0. pose proof (countb_le_len (Z.eqb 1) col) as Hn1.
    fold (ones col) in Hn1. fold e in Hn1.
    assert (Ep : (acc + (inject_Z (zsum col) - off) == inject_Z (total_ones cols - e * O + ones col))%Q).
    { rewrite Ec, Ez, Hoff, (inject_Z_plus _ (ones col)). ring. }
    assert (B1 : (inject_Z (total_ones cols - e * O + ones col) <= inject_Z (2 * e - 1))%Q) by (apply inject_Z_le_iff; lia).
    assert (B0 : (inject_Z 0 <= inject_Z (total_ones cols - e * O + ones col))%Q) by (apply inject_Z_le_iff; lia).
    change (inject_Z 0) with 0%Q in B0.
    destruct (add_lane_free lim (inject_Z e) off acc col HsQ) as [F1 F2];
      [rewrite Ep; lra|rewrite Ep; lra|].
    set (o := snd (add_lane lim (inject_Z e) off acc col)) in *.
    rewrite F1, Ep. destruct F2 as [[Eo F2]|[Eo F2]]; rewrite Eo, Ep in *.
    + rewrite <- Zle_Qle in F2. split; [|lia].
      rewrite <- inject_Z_mult. unfold Qminus. rewrite <- inject_Z_opp, <- inject_Z_plus. apply inject_Z_eq. ring.
    + rewrite <- Zlt_Qlt in F2. split; [|lia].
      rewrite <- inject_Z_mult. unfold Qminus. rewrite <- inject_Z_opp, <- inject_Z_plus. apply inject_Z_eq. ring.
Qed.

(** ** Compatibility with equality of rationals *)
Lemma add_lane_comp lim s s' off off' acc acc' col :
  (s == s')%Q -> (off == off')%Q -> (acc == acc')%Q ->
  snd (add_lane lim s off acc col) = snd (add_lane lim s' off' acc' col) /\
  (fst (add_lane lim s off acc col) == fst (add_lane lim s' off' acc' col))%Q.
Proof.
  intros Hs Ho Ha. unfold add_lane, acc_step. cbn [fst snd].
  assert (E : (qclamp (- lim) lim (acc + (inject_Z (zsum col) - off)) ==
               qclamp (- lim) lim (acc' + (inject_Z (zsum col) - off')))%Q).
  { apply qclamp_compx. rewrite Ha, Ho. reflexivity. }
  rewrite (qge_comp _ _ _ _ E Hs). split; [reflexivity|].
  apply qclamp_compx.
  generalize (b2z (qge (qclamp (- lim) lim (acc' + (inject_Z (zsum col) - off'))) s')). intros o.
  rewrite E, Hs. reflexivity.
Qed.

Lemma add_run_comp lim s s' off off' cols :
  (s == s')%Q -> (off == off')%Q -> forall acc acc', (acc == acc')%Q ->
  outs (add_lane lim s off) acc cols = outs (add_lane lim s' off') acc' cols /\
  (final (add_lane lim s off) acc cols == final (add_lane lim s' off') acc' cols)%Q.
Proof.
  intros Hs Ho. induction cols as [|col cols IH]; intros acc acc' Ha; [split; [reflexivity|exact Ha]|].
  rewrite !outs_cons, !final_cons.
  destruct (add_lane_comp lim s s' off off' acc acc' col Hs Ho Ha) as [E1 E2].
  destruct (IH _ _ E2) as [I1 I2]. rewrite E1, I1. split; [reflexivity|exact I2].
Qed.

(** ** FSUAdd *)
Lemma fsuadd_bits c cols : bits (outs (fsuadd_step c) (fsuadd_init c) cols).
Proof.
  destruct cols as [|col cols]; [constructor|].
  destruct (fsuadd_step_run c col cols) as [R _]. rewrite R. apply add_lane_outs_bits.
Qed.

Lemma acc_lim_nonneg d : (0 <= acc_lim d)%Q.
Proof. unfold acc_lim. pose proof (qpow2_pos (d - 2)). lra. Qed.

Theorem fsuadd_scaled_exact : forall c e cols,
  0 < e ->
  resolved_entry None (fa_entry c) e = e ->
  (resolved_scale None (fa_scale c) e == inject_Z e)%Q ->
  Forall bits cols -> Forall (fun col => zlen col = e) cols ->
  (inject_Z (2 * e - 1) <= qpow2 (fa_depth c - 2))%Q ->
  ones (outs (fsuadd_step c) (fsuadd_init c) cols) = total_ones cols / e.
Proof.
  intros c e cols He Hen Hsc Hb Hl Hlim.
  destruct cols as [|col cols]; [reflexivity|].
  destruct (fsuadd_step_run c col cols) as [R _]. rewrite R. clear R.
  assert (Hcol : zlen col = e) by (inversion Hl; assumption).
  rewrite Hcol, Hen in *.
  set (s := resolved_scale None (fa_scale c) e) in *.
  assert (Hoff : (mode_offset (fa_mode c) e s == 0)%Q).
  { unfold mode_offset. destruct (fa_mode c); [reflexivity|]. rewrite Hsc. field. }
  destruct (add_run_comp (acc_lim (fa_depth c)) s (inject_Z e) (mode_offset (fa_mode c) e s) 0%Q (col :: cols) Hsc Hoff 0%Q 0%Q (Qeq_refl _)) as [E _].
  rewrite E.
  destruct (add_exact_int (acc_lim (fa_depth c)) e 0%Q (col :: cols) He (Qeq_refl _) Hb Hl Hlim) as [_ Hr].
  set (O := ones (outs (add_lane (acc_lim (fa_depth c)) (inject_Z e) 0%Q) 0%Q (col :: cols))) in *.
  apply Z.div_unique with (r := total_ones (col :: cols) - e * O); [left; exact Hr|lia].
Qed.

Theorem fsuadd_floor : forall c e s cols,
  0 < e ->
  resolved_entry None (fa_entry c) e = e ->
  resolved_scale None (fa_scale c) e = s ->
  (inject_Z e <= s)%Q -> (2 * s <= qpow2 (fa_depth c - 2))%Q ->
  Forall bits cols -> Forall (fun col => zlen col = e) cols ->
  ones (outs (fsuadd_step c) (fsuadd_init c) cols) =
  Qfloor ((inject_Z (total_ones cols) - inject_Z (zlen cols) * mode_offset (fa_mode c) e s) / s).
Proof.
  intros c e s cols He Hen Hsc Hes Hlim Hb Hl.
  assert (Hs : (0 < s)%Q) by (pose proof (inject_Z_pos e He); lra).
  destruct cols as [|col cols].
  { reflexivity. }
  destruct (fsuadd_step_run c col cols) as [R _]. rewrite R. clear R.
  assert (Hcol : zlen col = e) by (inversion Hl; assumption).
  rewrite Hcol, Hen, Hsc in *.
  destruct (add_floor (acc_lim (fa_depth c)) s (mode_offset (fa_mode c) e s) (col :: cols) Hs Hb) as [Ha Ec].
  - clear Hcol. rewrite Forall_forall in Hl |- *. intros x Hx. specialize (Hl x Hx). cbv beta in Hl.
    pose proof (ones_nonneg x) as N0. pose proof (countb_le_len (Z.eqb 1) x) as N1. fold (ones x) in N1. rewrite Hl in N1.
    assert (A0 : (0 <= inject_Z (ones x))%Q) by (change 0%Q with (inject_Z 0); apply inject_Z_le_iff, N0).
    assert (A1 : (inject_Z (ones x) <= inject_Z e)%Q) by (apply inject_Z_le_iff, N1).
    unfold mode_offset. destruct (fa_mode c); [lra|].
    setoid_replace ((inject_Z e - s) / 2)%Q with ((inject_Z e - s) * (1#2))%Q by field. lra.
  - exact Hlim.
  - apply (floor_of_content s _ _ _ _ _ Hs Ha Ec).
Qed.

Theorem fsuadd_conserve : forall c e s cols,
  resolved_entry None (fa_entry c) e = e ->
  resolved_scale None (fa_scale c) e = s ->
  (0 < s)%Q -> Forall bits cols -> Forall (fun col => zlen col = e) cols ->
  let off := mode_offset (fa_mode c) e s in
  let lim := qpow2 (fa_depth c - 2) in
  let out h := ones (outs (fsuadd_step c) (fsuadd_init c) h) in
  let received h := (inject_Z (total_ones h) - inject_Z (zlen h) * off)%Q in
  let acc := fs_acc (final (fsuadd_step c) (fsuadd_init c) cols) in
  ((- lim <= acc)%Q /\ (acc <= lim)%Q) /\
  ((forall pre col post, cols = pre ++ col :: post ->
      (- lim <= received (pre ++ [col]) - s * inject_Z (out pre))%Q /\
      (received (pre ++ [col]) - s * inject_Z (out pre) <= lim)%Q) ->
   (s * inject_Z (out cols) + acc == received cols)%Q /\
   (Qabs (received cols - s * inject_Z (out cols)) <= lim)%Q).
Proof.
  intros c e s cols Hen Hsc Hs Hb Hl off lim out received acc.
  pose proof (acc_lim_nonneg (fa_depth c)) as Hn.
  assert (Hall : forall h, Forall (fun col => zlen col = e) h ->
            outs (fsuadd_step c) (fsuadd_init c) h = outs (add_lane lim s off) 0%Q h /\
            fs_acc (final (fsuadd_step c) (fsuadd_init c) h) = final (add_lane lim s off) 0%Q h).
  { intros [|col h] Hh; [split; reflexivity|].
    destruct (fsuadd_step_run c col h) as [R1 R2].
    assert (Hcol : zlen col = e) by (inversion Hh; assumption).
    rewrite Hcol, Hen, Hsc in R1, R2. split; [exact R1|exact R2]. }
  destruct (Hall cols Hl) as [E1 E2]. unfold acc. rewrite E2.
  split; [apply add_final_range, Hn|]. intros Hr.
  assert (Hc : (final (add_lane lim s off) 0 cols ==
                content s off (zlen cols) (total_ones cols) (ones (outs (add_lane lim s off) 0%Q cols)))%Q).
  { apply add_conserve; [exact Hs|exact Hb|]. intros pre col post E.
    specialize (Hr pre col post E). unfold received, out in Hr.
    rewrite E in Hl. apply Forall_app in Hl. destruct Hl as [Hl _].
    rewrite (proj1 (Hall pre Hl)) in Hr. rewrite zlen_snoc in Hr. exact Hr. }
  unfold out. rewrite E1. pose proof (add_final_range lim s off cols Hn) as Hrange.
  unfold content in Hc. unfold received.
  set (O := inject_Z (ones (outs (add_lane lim s off) 0%Q cols))) in *.
  set (T := inject_Z (total_ones cols)) in *. set (N := inject_Z (zlen cols)) in *.
  set (A := final (add_lane lim s off) 0%Q cols) in *.
  split; [rewrite Hc; ring|]. apply Qabs_Qle_condition. split; lra.
Qed.

Theorem fsuadd_dead : forall c e cols,
  let en := resolved_entry None (fa_entry c) e in
  (qpow2 (fa_depth c - 2) < resolved_scale None (fa_scale c) en)%Q ->
  Forall (fun col => zlen col = e) cols ->
  outs (fsuadd_step c) (fsuadd_init c) cols = repeat 0 (length cols).
Proof.
  intros c e cols en Hd Hl. destruct cols as [|col cols]; [reflexivity|].
  destruct (fsuadd_step_run c col cols) as [R _]. rewrite R.
  assert (Hcol : zlen col = e) by (inversion Hl; assumption). rewrite Hcol.
  apply add_dead; [exact Hd|apply acc_lim_nonneg].
Qed.

(** ** Hard sigmoid *)
Lemma hardsig_outs m d xs st :
  outs (fsuhardsigmoid_step m d) st xs = outs (fsuadd_step (hardsigmoid_cfg m d)) st (map (fun x => [x; 1]) xs).
Proof.
  revert st; induction xs as [|x xs IH]; intros st; [reflexivity|].
  cbn [map]. rewrite !outs_cons. unfold fsuhardsigmoid_step at 1 2. rewrite IH. reflexivity.
Qed.

Lemma qpow2_ge d : 4 <= d -> (4 <= qpow2 (d - 2))%Q.
Proof.
  intros H. rewrite qpow2_p2 by lia. change 4%Q with (inject_Z (2 ^ 2)). apply inject_Z_le_iff.
  apply Z.pow_le_mono_r; lia.
Qed.

Theorem hardsigmoid_exact : forall m d xs, 4 <= d -> bits xs ->
  ones (outs (fsuhardsigmoid_step m d) (fsuhardsigmoid_init m d) xs) = (zlen xs + ones xs) / 2.
Proof.
  intros m d xs Hd Hb. rewrite hardsig_outs. unfold fsuhardsigmoid_init.
  rewrite (fsuadd_scaled_exact _ 2).
  - f_equal. clear Hd. unfold total_ones. rewrite map_map.
    induction Hb as [|x xs Hx Hxs IH]; [reflexivity|]. cbn [map zsum]. rewrite IH.
    change (x :: xs) with ([x] ++ xs). rewrite zlen_app, ones_app, (ones_bit x Hx).
    assert (E : ones [x; 1] = x + 1) by (destruct Hx as [->| ->]; reflexivity). rewrite E. change (zlen [x]) with 1. lia.
  - lia.
  - reflexivity.
  - reflexivity.
  - apply Forall_forall. intros c Hc. apply in_map_iff in Hc. destruct Hc as (x & <- & Hx).
    unfold bits in Hb. rewrite Forall_forall in Hb. constructor; [apply Hb, Hx|repeat constructor; right; reflexivity].
  - apply Forall_forall. intros c Hc. apply in_map_iff in Hc. destruct Hc as (x & <- & _). reflexivity.
  - cbn [hardsigmoid_cfg fa_depth]. pose proof (qpow2_ge d Hd). change (inject_Z (2 * 2 - 1)) with 3%Q. lra.
Qed.

Theorem hubhardsigmoid_value : forall x, (hubhardsigmoid 3 x == qclamp 0 1 ((x + 1) / 2))%Q.
Proof.
  intros x. unfold hubhardsigmoid, torch_hardsigmoid.
  rewrite (qclamp_compx 0 1 ((x + 1) / 2) ((x + 1) * (1#2))) by field.
  setoid_replace (qclamp 0 6 (x * 3 + 3) / 6)%Q with (qclamp 0 6 (x * 3 + 3) * (1#6))%Q by field.
  unfold qclamp, qmin, qmax. qcases; lra.
Qed.

(** Clipping activations, case by case. *)
Lemma clamp_cases : forall lo hi x, (lo <= hi)%Q ->
  ((x <= lo)%Q -> (qclamp lo hi x == lo)%Q) /\ ((hi <= x)%Q -> (qclamp lo hi x == hi)%Q) /\ ((lo <= x <= hi)%Q -> (qclamp lo hi x == x)%Q).
Proof.
  intros lo hi x L. unfold qclamp, qmin, qmax.
  destruct (Qle_bool_spec x lo); match goal with |- context [Qle_bool ?a ?b] => destruct (Qle_bool_spec a b) end;
  (split; [|split]); intros; lra.
Qed.
Theorem hub_clips : forall scale x, (0 < scale)%Q ->
  ((x <= 0)%Q -> (hubrelu scale x == 0)%Q) /\ ((scale <= x)%Q -> (hubrelu scale x == scale)%Q) /\ ((0 <= x <= scale)%Q -> (hubrelu scale x == x)%Q) /\
  ((x <= -1)%Q -> (hubhardtanh x == -1)%Q) /\ ((1 <= x)%Q -> (hubhardtanh x == 1)%Q) /\ ((-1 <= x <= 1)%Q -> (hubhardtanh x == x)%Q) /\
  ((x <= -1)%Q -> (hubhardsigmoid 3 x == 0)%Q) /\ ((1 <= x)%Q -> (hubhardsigmoid 3 x == 1)%Q) /\
  ((-1 <= x <= 1)%Q -> (hubhardsigmoid 3 x == (x + 1) / 2)%Q).
Proof.
  intros scale x S. destruct (clamp_cases 0 scale x) as (A & B & C); [lra|]. destruct (clamp_cases (-1) 1 x) as (D & E & F); [lra|].
  destruct (clamp_cases 0 1 ((x + 1) / 2)) as (G & H & J); [lra|]. unfold hubrelu, hubhardtanh.
  repeat (split; [assumption|]). rewrite hubhardsigmoid_value.
  assert (K : ((x + 1) / 2 == (1 # 2) * x + (1 # 2))%Q) by field.
  split; [intros; apply G; rewrite K; lra|]. split; [intros; apply H; rewrite K; lra|]. intros; apply J; rewrite K; lra.
Qed.
Theorem fsuhardtanh_id : forall xs, map fsuhardtanh xs = xs.
Proof. apply map_id. Qed.
