(** Proofs about the non-scaled adders of hw/kernel/old. *)
From Coq Require Import Lqa.
Require Import Verif.BaseLemmas Verif.AddModel Verif.RtlMoreModel Verif.RtlMoreSpec.
Require Import Verif.AddProof Verif.RtlProof Verif.RtlRngProof Verif.RtlCountProof.
Open Scope Z_scope.

Lemma unsadd8_sum off st x : length x = 8%nat -> bits x -> unsadd8 off st x = unsadd_acc off st (zsum x).
Proof.
  intros Hl Hb. unfold unsadd8.
  assert (Ex : x = firstn 7 x ++ [bitn x 7]).
  { rewrite <- (firstn_skipn 7 x) at 1. f_equal. do 8 (destruct x as [|? x]; [discriminate|]). destruct x; [reflexivity|discriminate]. }
  assert (L7 : length (firstn 7 x) = 7%nat) by (rewrite firstn_length; lia).
  assert (B7 : bits (firstn 7 x)) by (apply bits_firstn, Hb).
  assert (Es : zsum (firstn 7 x) + bitn x 7 = zsum x) by (rewrite Ex at 3; rewrite zsum_app; cbn [zsum]; lia).
  rewrite parallelcnt7_sum, Es by assumption. pose proof (bits_sum_range x 8 Hl Hb) as Hs.
  rewrite trunc_id by (change (p2 4) with 16; lia). reflexivity.
Qed.
Lemma unsadd16_sum off st x : length x = 16%nat -> bits x -> unsadd16 off st x = unsadd_acc off st (zsum x).
Proof.
  intros Hl Hb. unfold unsadd16.
  assert (Ex : x = firstn 15 x ++ [bitn x 15]).
  { rewrite <- (firstn_skipn 15 x) at 1. f_equal. do 16 (destruct x as [|? x]; [discriminate|]). destruct x; [reflexivity|discriminate]. }
  assert (L7 : length (firstn 15 x) = 15%nat) by (rewrite firstn_length; lia).
  assert (B7 : bits (firstn 15 x)) by (apply bits_firstn, Hb).
  assert (Es : zsum (firstn 15 x) + bitn x 15 = zsum x) by (rewrite Ex at 3; rewrite zsum_app; cbn [zsum]; lia).
  rewrite parallelcnt15_sum, Es by assumption. pose proof (bits_sum_range x 16 Hl Hb) as Hs.
  rewrite trunc_id by (change (p2 5) with 32; lia). reflexivity.
Qed.

(** The accumulator of FSUAdd with scale 1, in halves. *)
Definition half (z : Z) : Q := (inject_Z z * (1 # 2))%Q.
Lemma half_le x y : x <= y -> (half x <= half y)%Q.
Proof. intros H. unfold half. assert (inject_Z x <= inject_Z y)%Q by (apply inject_Z_le_iff; exact H). lra. Qed.
Lemma half_lane lim off O acc P col : (off == half O)%Q -> (acc == half P)%Q ->
  let x := P + 2 * zsum col - O in
  (inject_Z (Z.abs x) <= 2 * lim)%Q ->
  snd (add_lane lim 1 off acc col) = b2z (x >=? 2) /\
  (fst (add_lane lim 1 off acc col) == half (x - 2 * b2z (x >=? 2)))%Q.
Proof.
  intros Ho Ea x Hx.
  assert (Ep : (acc + (inject_Z (zsum col) - off) == half x)%Q).
  { rewrite Ea, Ho. unfold half, x. unfold Zminus. rewrite !inject_Z_plus, inject_Z_opp, inject_Z_mult. change (inject_Z 2) with 2%Q. field. }
  assert (H1 : (inject_Z x <= inject_Z (Z.abs x))%Q) by (apply inject_Z_le_iff; lia).
  assert (H2 : (inject_Z (- x) <= inject_Z (Z.abs x))%Q) by (apply inject_Z_le_iff; lia). rewrite inject_Z_opp in H2.
  assert (L1 : (- lim <= acc + (inject_Z (zsum col) - off))%Q) by (rewrite Ep; unfold half; lra).
  assert (L2 : (acc + (inject_Z (zsum col) - off) <= lim)%Q) by (rewrite Ep; unfold half; lra).
  destruct (add_lane_free lim 1 off acc col ltac:(reflexivity) L1 L2) as [F1 F2].
  set (o := snd (add_lane lim 1 off acc col)) in *.
  assert (Eo : o = b2z (x >=? 2)).
  { destruct F2 as [[E F]|[E F]]; rewrite E, Ep in *; unfold half in F.
    - assert (G : (inject_Z 2 <= inject_Z x)%Q) by (change (inject_Z 2) with 2%Q; lra). rewrite <- Zle_Qle in G.
      destruct (Z.geb_spec x 2); [reflexivity|lia].
    - assert (G : (inject_Z x < inject_Z 2)%Q) by (change (inject_Z 2) with 2%Q; lra). rewrite <- Zlt_Qlt in G.
      destruct (Z.geb_spec x 2); [lia|reflexivity]. }
  split; [exact Eo|]. rewrite F1, Ep, Eo. unfold half, Zminus. rewrite inject_Z_plus, inject_Z_opp, inject_Z_mult.
  change (inject_Z 2) with 2%Q. field.
Qed.

(** ** Without an offset *)

Lemma depth11 depth x : 11 <= depth -> Z.abs x <= 1024 -> (inject_Z (Z.abs x) <= 2 * acc_lim depth)%Q.
Proof.
  intros Hd Hx. unfold acc_lim. rewrite qpow2_p2 by lia. change 2%Q with (inject_Z 2). rewrite <- inject_Z_mult. apply inject_Z_le_iff.
  assert (2 ^ 9 <= 2 ^ (depth - 2)) by (apply Z.pow_le_mono_r; lia). change (2 ^ 9) with 512 in H. lia.
Qed.

Lemma total_cons col cols : total_ones (col :: cols) = ones col + total_ones cols.
Proof. reflexivity. Qed.

Lemma unsadd0_run (f : Z * Z -> list Z -> (Z * Z) * Z) lim cols :
  (forall x, Z.abs x <= 1024 -> (inject_Z (Z.abs x) <= 2 * lim)%Q) ->
  Forall (fun col => bits col /\ forall st, f st col = unsadd_acc 0 st (zsum col)) cols ->
  forall u v acc, 0 <= v <= u -> 2 * (u + total_ones cols) <= 1023 -> (acc == half (2 * (u - v) - 2 * b2z (u >? v)))%Q ->
  outs f (2 * u, 2 * v) cols = delayed (b2z (u >? v)) (outs (add_lane lim 1 0) acc cols).
Proof.
  intros HL. induction cols as [|col cols IH]; intros HF u v acc Huv Hu Ea; [reflexivity|].
  destruct (Forall_inv HF) as [Hb Hf]. rewrite total_cons in Hu. pose proof (ones_nonneg col) as Hp.
  assert (Hc : 0 <= total_ones cols).
  { clear. induction cols as [|c r IH]; [reflexivity|]. rewrite total_cons. pose proof (ones_nonneg c). lia. }
  pose proof (zsum_ones col Hb) as Es.
  rewrite !outs_cons, delayed_cons, Hf. unfold unsadd_acc. cbn [fst snd].
  assert (G : (2 * u >? 2 * v) = (u >? v)) by (destruct (Z.gtb_spec (2 * u) (2 * v)), (Z.gtb_spec u v); lia || reflexivity).
  rewrite G. f_equal. rewrite Es.
  assert (Ho : 0 <= b2z (u >? v) <= u - v) by (unfold b2z; destruct (Z.gtb_spec u v); lia).
  rewrite !trunc_id by (change (p2 10) with 1024; lia).
  replace (2 * u + 2 * ones col - 0) with (2 * (u + ones col)) by lia.
  replace (2 * v + 2 * b2z (u >? v)) with (2 * (v + b2z (u >? v))) by lia.
  destruct (half_lane lim 0 0 acc (2 * (u - v) - 2 * b2z (u >? v)) col ltac:(reflexivity) Ea) as [H1 H2]; [apply HL; rewrite Es; lia|].
  rewrite Es in *. set (u' := u + ones col). set (v' := v + b2z (u >? v)) in *.
  replace (2 * (u - v) - 2 * b2z (u >? v) + 2 * ones col - 0) with (2 * (u' - v')) in * by lia.
  assert (G' : b2z (2 * (u' - v') >=? 2) = b2z (u' >? v')) by (destruct (Z.geb_spec (2 * (u' - v')) 2), (Z.gtb_spec u' v'); lia || reflexivity).
  rewrite G' in *. rewrite H1. apply IH; [exact (Forall_inv_tail HF)|lia|lia|exact H2].
Qed.

Lemma unsadd0_equiv (f : Z * Z -> list Z -> (Z * Z) * Z) depth cols : 11 <= depth ->
  Forall (fun col => bits col /\ forall st, f st col = unsadd_acc 0 st (zsum col)) cols -> total_ones cols <= 511 ->
  outs f unsadd_init cols = delayed 0 (outs (fsuadd_step (unit_cfg Unipolar depth)) (fsuadd_init (unit_cfg Unipolar depth)) cols).
Proof.
  intros Hd HF Ht. destruct cols as [|col cols]; [reflexivity|].
  destruct (fsuadd_step_run (unit_cfg Unipolar depth) col cols) as [-> _].
  unfold resolved_entry, resolved_scale, mode_offset, unit_cfg. cbn [fa_mode fa_scale fa_depth fa_entry].
  apply (unsadd0_run f (acc_lim depth) (col :: cols)) with (u := 0) (v := 0); [intros; apply depth11; assumption|exact HF|lia|lia|reflexivity].
Qed.
Lemma unsadd8_equiv depth cols : 11 <= depth -> Forall (fun col => length col = 8%nat /\ bits col) cols -> total_ones cols <= 511 ->
  outs (unsadd8 0) unsadd_init cols = delayed 0 (outs (fsuadd_step (unit_cfg Unipolar depth)) (fsuadd_init (unit_cfg Unipolar depth)) cols).
Proof.
  intros Hd HF Ht. apply unsadd0_equiv; [exact Hd| |exact Ht]. eapply Forall_impl; [|exact HF]. intros c [Hl Hb].
  split; [exact Hb|]. intros st. apply unsadd8_sum; assumption.
Qed.
Lemma unsadd16_equiv depth cols : 11 <= depth -> Forall (fun col => length col = 16%nat /\ bits col) cols -> total_ones cols <= 511 ->
  outs (unsadd16 0) unsadd_init cols = delayed 0 (outs (fsuadd_step (unit_cfg Unipolar depth)) (fsuadd_init (unit_cfg Unipolar depth)) cols).
Proof.
  intros Hd HF Ht. apply unsadd0_equiv; [exact Hd| |exact Ht]. eapply Forall_impl; [|exact HF]. intros c [Hl Hb].
  split; [exact Hb|]. intros st. apply unsadd16_sum; assumption.
Qed.

(** ** With offset 15 and sixteen inputs *)
Lemma unsadd15_run lim off cols z : (off == half 15)%Q -> (forall x, Z.abs x <= 1024 -> (inject_Z (Z.abs x) <= 2 * lim)%Q) ->
  Forall (fun col => length col = 16%nat /\ bits col) (cols ++ [z]) ->
  forall T v e acc, 0 <= v -> 2 * v <= 1022 -> e = 0 \/ e = 1 ->
  (forall p, (p <= length cols)%nat -> 0 <= T + (2 * total_ones (firstn p cols) - 15 * Z.of_nat p) <= 1022) ->
  let o := b2z (T >? 2 * v) in
  (acc == half (T - 2 * v - 2 * o + 2 * e))%Q ->
  0 <= e + ones (outs (unsadd16 15) (T, 2 * v) (cols ++ [z])) - o - ones (outs (add_lane lim 1 off) acc cols) <= 1.
Proof.
  intros Ho HL. induction cols as [|col cols IH]; intros HF T v e acc Hv Hv2 He HT o Ea.
  - cbn [app]. destruct (Forall_inv HF) as [Hl Hb]. rewrite outs_cons, unsadd16_sum by assumption. unfold unsadd_acc. cbn [snd fst].
    fold o. rewrite ones_cons_bit by apply b2z_bit. fold o. rewrite !outs_nil. change (ones []) with 0. lia.
  - cbn [app] in *. destruct (Forall_inv HF) as [Hl Hb]. rewrite !outs_cons, unsadd16_sum by assumption. unfold unsadd_acc. cbn [snd fst].
    fold o. pose proof (zsum_ones col Hb) as Es.
    pose proof (HT 0%nat ltac:(lia)) as HT0. change (total_ones (firstn 0 (col :: cols))) with 0 in HT0.
    pose proof (HT 1%nat ltac:(cbn [length]; lia)) as HT1.
    change (total_ones (firstn 1 (col :: cols))) with (ones col + 0) in HT1.
    assert (Ov : bit o) by apply b2z_bit.
    assert (Hv' : 2 * (v + o) <= 1022) by (unfold o, b2z; destruct (Z.gtb_spec T (2 * v)); lia).
    rewrite !trunc_id by (change (p2 10) with 1024; rewrite ?Es; destruct Ov; lia).
    set (T' := T + 2 * zsum col - 15). replace (2 * v + 2 * o) with (2 * (v + o)) by lia.
    destruct (half_lane lim off 15 acc (T - 2 * v - 2 * o + 2 * e) col Ho Ea) as [H1 H2]; [apply HL; rewrite Es; destruct Ov; lia|].
    set (x := T - 2 * v - 2 * o + 2 * e + 2 * zsum col - 15) in *. set (y := b2z (x >=? 2)) in *. rewrite H1.
    set (o' := b2z (T' >? 2 * (v + o))).
    assert (Ex : x = T' - 2 * (v + o) + 2 * e) by (unfold x, T'; lia).
    assert (Oy : bit y) by apply b2z_bit. assert (Oo : bit o') by apply b2z_bit.
    assert (He' : e + o' - y = 0 \/ e + o' - y = 1).
    { unfold o', y, b2z. destruct (Z.gtb_spec T' (2 * (v + o))), (Z.geb_spec x 2); lia. }
    rewrite !ones_cons_bit by assumption.
    assert (IH' := IH (Forall_inv_tail HF) T' (v + o) (e + o' - y) (fst (add_lane lim 1 off acc col)) ltac:(destruct Ov; lia) Hv' He').
    cbv zeta in IH'. fold o' in IH'.
    assert (G := IH' ltac:(intros p Hp; specialize (HT (S p) ltac:(cbn [length]; lia)); cbn [firstn] in HT; rewrite total_cons in HT; unfold T'; rewrite Es; lia)
      ltac:(rewrite H2, Ex; unfold half; apply Qmult_comp; [apply inject_Z_eq; lia|reflexivity])).
    lia.
Qed.
Lemma unsadd15_count depth cols z : 11 <= depth -> Forall (fun col => length col = 16%nat /\ bits col) (cols ++ [z]) ->
  (forall p, (p <= length cols)%nat -> 0 <= 2 * total_ones (firstn p cols) - 15 * Z.of_nat p <= 1022) ->
  0 <= ones (outs (unsadd16 15) unsadd_init (cols ++ [z])) -
       ones (outs (fsuadd_step (unit_cfg Bipolar depth)) (fsuadd_init (unit_cfg Bipolar depth)) cols) <= 1.
Proof.
  intros Hd HF HT. assert (E : ones (outs (fsuadd_step (unit_cfg Bipolar depth)) (fsuadd_init (unit_cfg Bipolar depth)) cols) =
    ones (outs (add_lane (acc_lim depth) 1 (half 15)) 0%Q cols)).
  { destruct cols as [|col cols]; [reflexivity|]. destruct (fsuadd_step_run (unit_cfg Bipolar depth) col cols) as [-> _].
    unfold resolved_entry, resolved_scale, mode_offset, unit_cfg. cbn [fa_mode fa_scale fa_depth fa_entry].
    unfold zlen. destruct (Forall_inv HF) as [-> _]. reflexivity. }
  rewrite E. pose proof (unsadd15_run (acc_lim depth) (half 15) cols z ltac:(reflexivity) (fun x => depth11 depth x Hd) HF 0 0 0 0%Q
    ltac:(lia) ltac:(lia) ltac:(left; reflexivity)) as H. cbv zeta in H. change (b2z (0 >? 2 * 0)) with 0 in H. change (2 * 0) with 0 in H.
  specialize (H ltac:(intros p Hp; specialize (HT p Hp); lia) ltac:(reflexivity)). unfold unsadd_init. lia.
Qed.

(** ** Eight inputs with the offset of sixteen *)
Lemma unsadd8_ones_run n : forall t, Z.of_nat (t + n) <= 1023 ->
  outs (unsadd8 15) (Z.of_nat t, 2 * (Z.of_nat t / 2)) (repeat (repeat 1 8) n) = map (fun i => Z.of_nat (t + i) mod 2) (seq 0 n).
Proof.
  induction n as [|n IH]; intros t Ht; [reflexivity|]. cbn [repeat seq map]. rewrite outs_cons.
  rewrite unsadd8_sum by (try reflexivity; repeat (constructor; [right; reflexivity|]); constructor).
  change (zsum [1; 1; 1; 1; 1; 1; 1; 1]) with 8. unfold unsadd_acc. cbn [fst snd].
  assert (Eo : b2z (Z.of_nat t >? 2 * (Z.of_nat t / 2)) = Z.of_nat t mod 2).
  { pose proof (Z.div_mod (Z.of_nat t) 2 ltac:(lia)). pose proof (Z.mod_pos_bound (Z.of_nat t) 2 ltac:(lia)).
    unfold b2z. destruct (Z.gtb_spec (Z.of_nat t) (2 * (Z.of_nat t / 2))); lia. }
  rewrite Eo, Nat.add_0_r. f_equal. pose proof (Z.div_mod (Z.of_nat t) 2 ltac:(lia)). pose proof (Z.mod_pos_bound (Z.of_nat t) 2 ltac:(lia)).
  assert (E1 : Z.of_nat t + 2 * 8 - 15 = Z.of_nat (S t)) by lia.
  assert (E2 : 2 * (Z.of_nat t / 2) + 2 * (Z.of_nat t mod 2) = 2 * (Z.of_nat (S t) / 2)) by (rewrite Nat2Z.inj_succ; Z.to_euclidean_division_equations; lia).
  rewrite E1, E2, !trunc_id by (change (p2 10) with 1024; Z.to_euclidean_division_equations; lia).
  rewrite IH by lia. rewrite <- seq_shift, map_map. apply map_ext. intros i. f_equal. lia.
Qed.
Lemma unit_ones_run lim off n : (4 <= lim)%Q -> (off == 7 # 2)%Q -> forall acc, (0 <= acc)%Q ->
  outs (add_lane lim 1 off) acc (repeat (repeat 1 8) n) = repeat 1 n.
Proof.
  intros Hl Ho. induction n as [|n IH]; intros acc Ha; [reflexivity|]. cbn [repeat]. rewrite outs_cons.
  change [1; 1; 1; 1; 1; 1; 1; 1] with (repeat 1 8). unfold add_lane, acc_step. cbn [fst snd].
  change (inject_Z (zsum (repeat 1 8))) with 8%Q.
  assert (H : (4 <= qclamp (- lim) lim (acc + (8 - off)))%Q) by (unfold qclamp, qmin, qmax; qcases; lra).
  set (a1 := qclamp (- lim) lim (acc + (8 - off))) in *. clearbody a1.
  assert (G : qge a1 1 = true) by (apply qge_true; lra). rewrite G. cbn [b2z]. f_equal. apply IH.
  change (inject_Z 1) with 1%Q. unfold qclamp, qmin, qmax. qcases; lra.
Qed.
Lemma unsadd8_wrong depth n : 4 <= depth -> Z.of_nat n <= 1023 ->
  outs (unsadd8 15) unsadd_init (repeat (repeat 1 8) n) = map (fun i => Z.of_nat i mod 2) (seq 0 n) /\
  outs (fsuadd_step (unit_cfg Bipolar depth)) (fsuadd_init (unit_cfg Bipolar depth)) (repeat (repeat 1 8) n) = repeat 1 n.
Proof.
  intros Hd Hn. split; [exact (unsadd8_ones_run n 0 Hn)|]. destruct n as [|n]; [reflexivity|]. cbn [repeat].
  destruct (fsuadd_step_run (unit_cfg Bipolar depth) (repeat 1 8) (repeat (repeat 1 8) n)) as [E _]. cbn [repeat] in E. rewrite E.
  unfold resolved_entry, resolved_scale, mode_offset, unit_cfg. cbn [fa_mode fa_scale fa_depth fa_entry].
  apply (unit_ones_run _ _ (S n)); [|reflexivity|apply Qle_refl].
  unfold acc_lim. rewrite qpow2_p2 by lia. change 4%Q with (inject_Z 4). apply inject_Z_le_iff.
  change 4 with (2 ^ 2) at 1. apply Z.pow_le_mono_r; lia.
Qed.
