(** Proofs about the binary-interfaced convolutions (C61-C63). *)
From Coq Require Import String Lqa.
Require Import Verif.Base Verif.Spec Verif.BinConvSpec Verif.GenModel Verif.UtilsModel Verif.LinearModel Verif.HubModel Verif.ConvModel Verif.BinConvModel
  Verif.BaseLemmas Verif.UtilsProof Verif.LinearProof Verif.HubProof Verif.TlutProof Verif.ConvProof.
Open Scope Z_scope.

Notation anyq := (fun _ : Q => True).

Definition bconv_geom (g : bconv) (C H W ho wo : nat) : Prop :=
  (1 <= C)%nat /\ (1 <= H)%nat /\ (1 <= fst (bv_kernel g))%nat /\ (1 <= snd (bv_kernel g))%nat /\
  (1 <= fst (bv_stride g))%nat /\ (1 <= snd (bv_stride g))%nat /\ (1 <= ho)%nat /\ (1 <= wo)%nat /\
  positions (Z.of_nat (H + 2 * fst (bv_pad g))) (Z.of_nat (fst (bv_kernel g))) (Z.of_nat (fst (bv_stride g))) (Z.of_nat (fst (bv_dil g))) = Z.of_nat ho /\
  positions (Z.of_nat (W + 2 * snd (bv_pad g))) (Z.of_nat (snd (bv_kernel g))) (Z.of_nat (snd (bv_stride g))) (Z.of_nat (snd (bv_dil g))) = Z.of_nat wo.

(** The window rows. *)
Definition brows (g : bconv) (ho wo : nat) (input : list (image Q)) : list (list Q) :=
  rows_of 0%Q (bv_kernel g) (bv_stride g) (bv_dil g) ho wo (pad_all (fst (bv_pad g)) (fst (bv_pad g)) (snd (bv_pad g)) (snd (bv_pad g)) 0%Q input).

Lemma bconv_rows_ok g N C H W ho wo input : bconv_geom g C H W ho wo -> (1 <= N)%nat -> tensor_ok anyq N C H W input ->
  bconv_rows g input = Ok (brows g ho wo input) /\
  qshape (N * (ho * wo)) (C * (fst (bv_kernel g) * snd (bv_kernel g))) (brows g ho wo input) /\
  forall n y x k i j, (n < N)%nat -> (y < ho)%nat -> (x < wo)%nat -> (k < C)%nat -> (i < fst (bv_kernel g))%nat -> (j < snd (bv_kernel g))%nat ->
    qentry (brows g ho wo input) (row_index ho wo n y x) (tap_index (fst (bv_kernel g)) (snd (bv_kernel g)) k i j) =
    under (bv_stride g) (bv_dil g) (bv_pad g) H W input n y x k i j.
Proof.
  intros (HC & HH & K1 & K2 & S1 & S2 & O1 & O2 & P1 & P2) HN T. set (a := fst (bv_pad g)) in *. set (b := snd (bv_pad g)) in *.
  pose proof (pad_all_tensor anyq a a b b 0%Q N C H W input T Logic.I HH) as T'.
  pose proof (positions_axis (a + H + a) (H + 2 * a) _ _ _ ho S1 K1 O1 ltac:(lia) P1) as A1.
  pose proof (positions_axis (b + W + b) (W + 2 * b) _ _ _ wo S2 K2 O2 ltac:(lia) P2) as A2.
  split; [|split].
  - unfold bconv_rows, unfold_rows. change (bconv_pad (bv_pad g) input) with (pad_all a a b b 0%Q input).
    rewrite (tensor_size anyq N C _ _ _ T' HN HC ltac:(lia)). cbn [fst snd]. rewrite A1, A2.
    destruct (Z.ltb_spec (Z.of_nat ho) 1); [lia|]. destruct (Z.ltb_spec (Z.of_nat wo) 1); [lia|]. cbn [orb].
    rewrite !Nat2Z.id. reflexivity.
  - split.
    + unfold brows. rewrite rows_of_length. f_equal. apply T'.
    + pose proof (rows_of_all anyq 0%Q (bv_kernel g) (bv_stride g) (bv_dil g) ho wo (pad_all a a b b 0%Q input) C (tensor_all anyq N _ _ _ _ T') Logic.I) as F.
      eapply Forall_impl; [|exact F]. intros r Hr. apply Hr.
  - intros n y x k i j Hn Hy Hx Hk Hi Hj.
    pose proof (window_entry anyq a a b b 0%Q (bv_kernel g) (bv_stride g) (bv_dil g) N C H W input n y x k i j T HH S1 S2 Hn Hk Hi Hj) as E.
    cbn zeta in E. rewrite A1, A2, !Nat2Z.id in E. exact (E ltac:(lia) ltac:(lia)).
Qed.

Lemma bweight_ok no C kh kw weight : tensor_ok anyq no C kh kw weight ->
  qshape no (C * (kh * kw)) (map flat_filter weight) /\
  forall o k i j, (o < no)%nat -> (k < C)%nat -> (i < kh)%nat -> (j < kw)%nat ->
    qentry (map flat_filter weight) o (tap_index kh kw k i j) = entry4 0%Q weight o k i j.
Proof.
  intros T. split.
  - destruct (flat_filter_shape (fun x : Q => x) no C kh kw weight T) as [L F]. rewrite map_length in L. split; [rewrite map_length; exact L|].
    rewrite Forall_map in F |- *. eapply Forall_impl; [|exact F]. intros r Hr. cbn beta in Hr. rewrite map_length in Hr. exact Hr.
  - intros o k i j Ho Hk Hi Hj. unfold qentry. rewrite (map_nth_lt' _ _ _ []) by (destruct T as [-> _]; exact Ho).
    apply (flat_filter_entry 0%Q no C kh kw weight); assumption.
Qed.

Lemma qshape_tab B no m : qshape B no m -> m = tab2 B no (qentry m).
Proof.
  intros [L F]. unfold tab2. apply (nth_ext _ _ [] []).
  - rewrite tab_length. exact L.
  - intros b Hb. rewrite L in Hb. rewrite tab_nth by exact Hb. apply (nth_ext _ _ 0%Q 0%Q).
    + rewrite tab_length. apply (Forall_nth_lt _ m b [] F). lia.
    + intros i Hi. rewrite (Forall_nth_lt _ m b [] F ltac:(lia)) in Hi. rewrite tab_nth by exact Hi. reflexivity.
Qed.

Lemma bconv_out_ok g N C H W ho wo no bias input mm : bconv_geom g C H W ho wo -> (1 <= N)%nat -> tensor_ok anyq N C H W input ->
  qshape (N * (ho * wo)) no mm -> bias_ok no bias ->
  exists out, bconv_out g no bias input mm = Ok out /\ tensor_ok anyq N no ho wo out /\
    forall n o y x, (n < N)%nat -> (o < no)%nat -> (y < ho)%nat -> (x < wo)%nat ->
      (entry4 0%Q out n o y x == qentry mm (row_index ho wo n y x) o + bias_entry bias o)%Q.
Proof.
  intros (HC & HH & K1 & K2 & S1 & S2 & O1 & O2 & P1 & P2) HN T Sm Hb. unfold bconv_out.
  assert (Es : bconv_size g input = (Z.of_nat ho, Z.of_nat wo)).
  { unfold bconv_size. rewrite (tensor_size anyq N C H W input T HN HC HH). unfold conv2d_output_shape, natpair. cbn [num2tuple pad_tuple fst snd].
    f_equal; apply positions_shape; assumption. }
  rewrite Es. assert (Ln : length input = N) by apply T. rewrite Ln.
  rewrite fold_ok by (try assumption; apply Sm). cbn [bind].
  assert (Ef : fold_rows 0%Q N no ho wo mm = tab4 N no ho wo (fun b q y x => qentry mm (b * (ho * wo) + (y * wo + x)) q)).
  { rewrite (qshape_tab _ _ _ Sm) at 1. apply fold_rows_tab. }
  rewrite Ef. clear Ef.
  destruct bias as [b|].
  - cbn in Hb. exists (tab4 N no ho wo (fun n o y x => qentry mm (n * (ho * wo) + (y * wo + x)) o + nth o b 0)%Q). split; [|split].
    + f_equal. unfold tab4, tab2. rewrite map_tab. apply tab_ext. intros n _.
      replace b with (tab no (fun o => nth o b 0%Q)) at 1.
      * rewrite map2_tab. apply tab_ext. intros o _. rewrite map_tab. apply tab_ext. intros y _. apply map_tab.
      * apply (nth_ext _ _ 0%Q 0%Q); [rewrite tab_length; symmetry; exact Hb|]. intros o Ho. rewrite tab_length in Ho. rewrite tab_nth by exact Ho. reflexivity.
    + apply tab4_ok. intros. exact Logic.I.
    + intros n o y x Hn Ho Hy Hx. rewrite tab4_entry by assumption. reflexivity.
  - eexists. split; [reflexivity|]. split; [apply tab4_ok; intros; exact Logic.I|].
    intros n o y x Hn Ho Hy Hx. rewrite tab4_entry by assumption. cbn [bias_entry]. unfold row_index. ring.
Qed.

(** The frame. *)
Lemma bconv_apply_ok g f N C H W ho wo no input weight bias mm : bconv_geom g C H W ho wo -> (1 <= N)%nat ->
  tensor_ok anyq N C H W input -> tensor_ok anyq no C (fst (bv_kernel g)) (snd (bv_kernel g)) weight -> bias_ok no bias ->
  f (brows g ho wo input) (map flat_filter weight) = Ok (Some mm) -> qshape (N * (ho * wo)) no mm ->
  exists out, bconv_apply g f input weight bias = Ok (Some out) /\ tensor_ok anyq N no ho wo out /\
    forall n o y x, (n < N)%nat -> (o < no)%nat -> (y < ho)%nat -> (x < wo)%nat ->
      (entry4 0%Q out n o y x == qentry mm (row_index ho wo n y x) o + bias_entry bias o)%Q.
Proof.
  intros G HN T Tw Hb Ef Sm. destruct (bconv_rows_ok g N C H W ho wo input G HN T) as (Er & _ & _).
  destruct (bconv_out_ok g N C H W ho wo no bias input mm G HN T Sm Hb) as (out & Eo & To & Ent).
  exists out. split; [|split; assumption]. unfold bconv_apply. rewrite Er. cbn [bind]. rewrite Ef. cbn [bind].
  assert (Lw : length weight = no) by apply Tw. rewrite Lw, Eo. reflexivity.
Qed.

Lemma row_index_lt N ho wo n y x : (n < N)%nat -> (y < ho)%nat -> (x < wo)%nat -> (row_index ho wo n y x < N * (ho * wo))%nat.
Proof. intros. unfold row_index. apply fold_index; assumption. Qed.
Lemma tap_index_lt C kh kw k i j : (k < C)%nat -> (i < kh)%nat -> (j < kw)%nat -> (tap_index kh kw k i j < C * (kh * kw))%nat.
Proof. intros. unfold tap_index. apply fold_index; assumption. Qed.

(** ** Sums over taps *)
Lemma qsum_tab_prod a b (f : nat -> Q) : (qsum (tab (a * b) f) == qsum (tab a (fun i => qsum (tab b (fun j => f (i * b + j)%nat)))))%Q.
Proof.
  induction a as [|a IH]; [reflexivity|].
  replace (Datatypes.S a * b)%nat with (a * b + b)%nat by lia. unfold tab in *. rewrite seq_app, map_app, qsum_app, IH.
  rewrite seq_S, map_app, qsum_app. cbn [map qsum]. rewrite Nat.add_0_l.
  assert (E : map f (seq (a * b) b) = map (fun j => f (a * b + j)%nat) (seq 0 b)).
  { generalize (a * b)%nat as m. clear. intros m. rewrite <- (map_map (fun j => (m + j)%nat) f). f_equal.
    revert m. induction b as [|b IHb]; intros m; [reflexivity|]. cbn [seq map]. rewrite Nat.add_0_r. f_equal.
    rewrite (IHb (Datatypes.S m)). rewrite <- seq_shift, map_map. apply map_ext. intros. lia. }
  rewrite E. change (0 + a)%nat with a. ring.
Qed.

Lemma sumq_taps_tab C kh kw f : (qsum (tab (C * (kh * kw)) f) == sumq_taps C kh kw (fun c i j => f (tap_index kh kw c i j)))%Q.
Proof.
  rewrite qsum_tab_prod. unfold sumq_taps. apply (qsum_tab_ext C). intros c _. rewrite qsum_tab_prod. unfold tap_index. reflexivity.
Qed.

Lemma sumq_taps_ext C kh kw f g : (forall c i j, (c < C)%nat -> (i < kh)%nat -> (j < kw)%nat -> (f c i j == g c i j)%Q) ->
  (sumq_taps C kh kw f == sumq_taps C kh kw g)%Q.
Proof.
  intros E. unfold sumq_taps. apply (qsum_tab_ext C). intros c Hc. apply (qsum_tab_ext kh). intros i Hi. apply (qsum_tab_ext kw).
  intros j Hj. apply E; assumption.
Qed.

Lemma dotq_taps C kh kw x w : (dotq (C * (kh * kw)) x w == sumq_taps C kh kw (fun c i j => x (tap_index kh kw c i j) * w (tap_index kh kw c i j)))%Q.
Proof. unfold dotq. apply (sumq_taps_tab C kh kw (fun i => x i * w i)%Q). Qed.

(** ** HUBConv2d *)
Theorem hubconv_taps : forall c g widthi widthw r qi qw N C H W ho wo no input weight bias ri rw ro,
  bconv_geom g C H W ho wo -> (1 <= N)%nat -> tensor_ok anyq N C H W input ->
  tensor_ok anyq no C (fst (bv_kernel g)) (snd (bv_kernel g)) weight -> bias_ok no bias ->
  rshift_offset (flat4 input) (flat4 weight) (Z.of_nat widthi - 1) (Z.of_nat widthw - 1) r qi qw = Ok (Some (ri, rw, ro)) ->
  exists out, hubconv c g widthi widthw r qi qw input weight bias = Ok (Some out) /\ tensor_ok anyq N no ho wo out /\
    forall n o y x, (n < N)%nat -> (o < no)%nat -> (y < ho)%nat -> (x < wo)%nat ->
      (entry4 0%Q out n o y x ==
       inject_Z (sum_taps C (fst (bv_kernel g)) (snd (bv_kernel g)) (fun k i j =>
         hub_mul c ri rw (under (bv_stride g) (bv_dil g) (bv_pad g) H W input n y x k i j) (entry4 0%Q weight o k i j)))
       / Qpower 2 ro + bias_entry bias o)%Q.
Proof.
  intros c g widthi widthw r qi qw N C H W ho wo no input weight bias ri rw ro G HN T Tw Hb Er.
  destruct (bconv_rows_ok g N C H W ho wo input G HN T) as (_ & Sr & Ent).
  destruct (bweight_ok _ _ _ _ _ Tw) as [Sw Wnt].
  set (F := fun x y => qshr (inject_Z (zsum (map2 (hub_mul c ri rw) x y))) ro).
  pose proof (layer_shape F _ _ no _ _ None Sr Sw Logic.I) as Sm.
  destruct (bconv_apply_ok g (fun rows w => Ok (Some (hub_forward c ri rw ro rows w None))) N C H W ho wo no input weight bias
              (hub_forward c ri rw ro (brows g ho wo input) (map flat_filter weight) None) G HN T Tw Hb eq_refl Sm) as (out & Eo & To & Out).
  exists out. split; [|split; [exact To|]].
  - unfold hubconv. rewrite Er. cbn [bind]. exact Eo.
  - intros n o y x Hn Ho Hy Hx. rewrite (Out n o y x Hn Ho Hy Hx). apply Qplus_comp; [|reflexivity].
    assert (Hr := row_index_lt N ho wo n y x Hn Hy Hx).
    change (hub_forward c ri rw ro (brows g ho wo input) (map flat_filter weight) None)
      with (add_bias None (map (fun x => map (F x) (map flat_filter weight)) (brows g ho wo input))).
    rewrite (layer_entry F _ _ no _ _ None _ _ Sr Sw Logic.I Hr Ho). cbn [bias_entry]. unfold F.
    rewrite (map2_seq (hub_mul c ri rw) _ _ _ 0%Q 0%Q (qshape_row _ _ _ _ Sr Hr) (qshape_row _ _ _ _ Sw Ho)).
    rewrite Qplus_0_r. unfold qshr. change (qpow2 ro) with (Qpower 2 ro).
    match goal with |- (inject_Z (zsum ?l) / _ == inject_Z ?s / _)%Q => assert (E : zsum l = s) end.
    { etransitivity; [apply (sum_taps_tab C (fst (bv_kernel g)) (snd (bv_kernel g)))|]. apply sum_taps_ext. intros k i j Hk Hi Hj.
      fold (qentry (brows g ho wo input) (row_index ho wo n y x) (tap_index (fst (bv_kernel g)) (snd (bv_kernel g)) k i j)).
      fold (qentry (map flat_filter weight) o (tap_index (fst (bv_kernel g)) (snd (bv_kernel g)) k i j)).
      rewrite Ent, Wnt by assumption. reflexivity. }
    rewrite E. reflexivity.
Qed.

(** With a low-discrepancy table: the error against the convolution of the quantised operands. *)
Theorem hubconv_bound : forall exti extw w rngi rngw ki kw cyc g N C H W ho wo no r qi qw input weight bias ri rw ro,
  (1 <= w <= 30)%nat -> ext_ok exti w -> ext_ok extw w ->
  rng_parse rngi = Ok ki -> rng_parse rngw = Ok kw -> ki <> KLfsr -> kw <> KLfsr -> is_tc ki && is_tc kw = false ->
  (if is_tc kw then ki else kw) = KSobol -> 1 <= cyc ->
  bconv_geom g C H W ho wo -> (1 <= N)%nat -> tensor_ok anyq N C H W input ->
  tensor_ok anyq no C (fst (bv_kernel g)) (snd (bv_kernel g)) weight -> bias_ok no bias ->
  rshift_offset (flat4 input) (flat4 weight) (Z.of_nat w) (Z.of_nat w) r qi qw = Ok (Some (ri, rw, ro)) ->
  exists c out, hub_new exti extw (S w) (S w) rngi rngw (Some cyc) = Ok c /\
    hubconv c g (S w) (S w) r qi qw input weight bias = Ok (Some out) /\ tensor_ok anyq N no ho wo out /\
    forall n o y x, (n < N)%nat -> (o < no)%nat -> (y < ho)%nat -> (x < wo)%nat ->
      let cycle := Z.min cyc (p2 w) in
      (Qabs (entry4 0%Q out n o y x -
         (sumq_taps C (fst (bv_kernel g)) (snd (bv_kernel g)) (fun k i j =>
            sm_quant cycle ri (under (bv_stride g) (bv_dil g) (bv_pad g) H W input n y x k i j) * sm_quant cycle rw (entry4 0%Q weight o k i j))
          + bias_entry bias o)) <=
       inject_Z (Z.of_nat (C * (fst (bv_kernel g) * snd (bv_kernel g))) * Z.of_nat w) * Qpower 2 (Z.of_nat w + ri + rw))%Q.
Proof.
  intros exti extw w rngi rngw ki kw cyc g N C H W ho wo no r qi qw input weight bias ri rw ro Hw Xi Xw Ki Kw Li Lw Tt Hs Hc G HN T Tw Hb Er.
  destruct (hub_new_ok exti extw w rngi rngw ki kw cyc Hw Xi Xw Ki Kw Li Lw Tt) as (c & Ec & Cc & _ & HT).
  destruct (bconv_rows_ok g N C H W ho wo input G HN T) as (_ & Sr & Ent).
  destruct (bweight_ok _ _ _ _ _ Tw) as [Sw Wnt]. pose proof (p2_ge_1 w) as P1.
  destruct (hub_forward_bound c w (hub_ctlee exti extw ki kw w) ri rw ro (N * (ho * wo))%nat (C * (fst (bv_kernel g) * snd (bv_kernel g)))%nat no (brows g ho wo input) (map flat_filter weight) None) as [Sm Bd]; try assumption.
  { unfold hub_ctlee. destruct (is_tc kw); rewrite Hs; apply sobol_low_discrepancy; try assumption; unfold sobol_maxbit; lia. }
  { rewrite Cc. lia. }
  { apply (hub_offsets _ _ _ _ _ _ _ _ _ Er). }
  { exact Logic.I. }
  destruct (bconv_apply_ok g (fun rows w => Ok (Some (hub_forward c ri rw ro rows w None))) N C H W ho wo no input weight bias
              (hub_forward c ri rw ro (brows g ho wo input) (map flat_filter weight) None) G HN T Tw Hb eq_refl Sm) as (out & Eo & To & Out).
  exists c, out. split; [exact Ec|]. split; [|split; [exact To|]].
  - unfold hubconv. replace (Z.of_nat (S w) - 1) with (Z.of_nat w) by lia. rewrite Er. cbn [bind]. exact Eo.
  - intros n o y x Hn Ho Hy Hx cycle. assert (Hr := row_index_lt N ho wo n y x Hn Hy Hx).
    specialize (Bd _ o Hr Ho). rewrite Cc in Bd. fold cycle in Bd. cbn [bias_entry] in Bd.
    rewrite (Out n o y x Hn Ho Hy Hx).
    rewrite dotq_taps in Bd.
    match type of Bd with (Qabs (_ - (sumq_taps _ _ _ ?f + _)) <= _)%Q =>
      assert (E : (sumq_taps C (fst (bv_kernel g)) (snd (bv_kernel g)) f ==
        sumq_taps C (fst (bv_kernel g)) (snd (bv_kernel g)) (fun k i j =>
            sm_quant cycle ri (under (bv_stride g) (bv_dil g) (bv_pad g) H W input n y x k i j) * sm_quant cycle rw (entry4 0%Q weight o k i j)))%Q) end.
    { apply sumq_taps_ext. intros k i j Hk Hi Hj. rewrite Ent, Wnt by assumption. reflexivity. }
    rewrite E in Bd. eapply Qle_trans; [|exact Bd]. apply Qle_lteq. right. apply Qabs_wd. ring.
Qed.

(** ** FXPConv2d *)
Theorem fxpconv_taps : forall g widthi widthw r qi qw N C H W ho wo no input weight bias ri rw ro,
  bconv_geom g C H W ho wo -> (1 <= N)%nat -> tensor_ok anyq N C H W input ->
  tensor_ok anyq no C (fst (bv_kernel g)) (snd (bv_kernel g)) weight -> bias_ok no bias ->
  rshift_offset (flat4 input) (flat4 weight) (Z.of_nat widthi - 1) (Z.of_nat widthw - 1) r qi qw = Ok (Some (ri, rw, ro)) ->
  exists out, fxpconv g widthi widthw r qi qw input weight bias = Ok (Some out) /\ tensor_ok anyq N no ho wo out /\
    forall n o y x, (n < N)%nat -> (o < no)%nat -> (y < ho)%nat -> (x < wo)%nat ->
      (entry4 0%Q out n o y x ==
       sumq_taps C (fst (bv_kernel g)) (snd (bv_kernel g)) (fun k i j =>
         fx_quant (p2 widthi) ri (under (bv_stride g) (bv_dil g) (bv_pad g) H W input n y x k i j) * fx_quant (p2 widthw) rw (entry4 0%Q weight o k i j))
       + bias_entry bias o)%Q.
Proof.
  intros g widthi widthw r qi qw N C H W ho wo no input weight bias ri rw ro G HN T Tw Hb Er.
  destruct (bconv_rows_ok g N C H W ho wo input G HN T) as (_ & Sr & Ent).
  destruct (bweight_ok _ _ _ _ _ Tw) as [Sw Wnt].
  destruct (fxp_forward_eq ri rw (p2 widthi) (p2 widthw) _ _ no _ _ None (p2_ge_1 _) (p2_ge_1 _) Sr Sw Logic.I) as [Sm Eq].
  destruct (bconv_apply_ok g (fun rows w => Ok (Some (fxp_forward ri rw (0 - ri - rw) (p2 widthi) (p2 widthw) rows w None))) N C H W ho wo no input weight bias
              (fxp_forward ri rw (0 - ri - rw) (p2 widthi) (p2 widthw) (brows g ho wo input) (map flat_filter weight) None) G HN T Tw Hb eq_refl Sm) as (out & Eo & To & Out).
  exists out. split; [|split; [exact To|]].
  - unfold fxpconv. rewrite Er. cbn [bind]. exact Eo.
  - intros n o y x Hn Ho Hy Hx. rewrite (Out n o y x Hn Ho Hy Hx). apply Qplus_comp; [|reflexivity].
    rewrite (Eq _ o (row_index_lt N ho wo n y x Hn Hy Hx) Ho). cbn [bias_entry]. rewrite Qplus_0_r, dotq_taps.
    apply sumq_taps_ext. intros k i j Hk Hi Hj. rewrite Ent, Wnt by assumption. reflexivity.
Qed.

(** On representable data it is the exact convolution. *)
Theorem fxpconv_exact : forall g widthi widthw r qi qw N C H W ho wo no input weight bias ri rw ro,
  bconv_geom g C H W ho wo -> (1 <= N)%nat -> tensor_ok anyq N C H W input ->
  tensor_ok anyq no C (fst (bv_kernel g)) (snd (bv_kernel g)) weight -> bias_ok no bias ->
  rshift_offset (flat4 input) (flat4 weight) (Z.of_nat widthi - 1) (Z.of_nat widthw - 1) r qi qw = Ok (Some (ri, rw, ro)) ->
  tensor_ok (fun v => exists z, (v == inject_Z z * Qpower 2 ri)%Q /\ Z.abs z <= p2 widthi - 1) N C H W input ->
  tensor_ok (fun v => exists z, (v == inject_Z z * Qpower 2 rw)%Q /\ Z.abs z <= p2 widthw - 1) no C (fst (bv_kernel g)) (snd (bv_kernel g)) weight ->
  exists out, fxpconv g widthi widthw r qi qw input weight bias = Ok (Some out) /\ tensor_ok anyq N no ho wo out /\
    forall n o y x, (n < N)%nat -> (o < no)%nat -> (y < ho)%nat -> (x < wo)%nat ->
      (entry4 0%Q out n o y x ==
       sumq_taps C (fst (bv_kernel g)) (snd (bv_kernel g)) (fun k i j =>
         under (bv_stride g) (bv_dil g) (bv_pad g) H W input n y x k i j * entry4 0%Q weight o k i j) + bias_entry bias o)%Q.
Proof.
  intros g widthi widthw r qi qw N C H W ho wo no input weight bias ri rw ro G HN T Tw Hb Er Ri Rw.
  destruct (fxpconv_taps g widthi widthw r qi qw N C H W ho wo no input weight bias ri rw ro G HN T Tw Hb Er) as (out & Eo & To & Out).
  exists out. split; [exact Eo|]. split; [exact To|]. intros n o y x Hn Ho Hy Hx. rewrite (Out n o y x Hn Ho Hy Hx).
  apply Qplus_comp; [|reflexivity]. apply sumq_taps_ext. intros k i j Hk Hi Hj.
  assert (En : forall (P : Q -> Prop) A B D E (t : list (image Q)) a b d e, tensor_ok P A B D E t -> (a < A)%nat -> (b < B)%nat -> (d < D)%nat -> (e < E)%nat -> P (entry4 0%Q t a b d e)).
  { intros P A B D E t a b d e [L F] Ha Hb' Hd He. unfold entry4. rewrite <- L in Ha. destruct (Forall_nth_lt _ _ a [] F Ha) as [L1 F1].
    rewrite <- L1 in Hb'. destruct (Forall_nth_lt _ _ b [] F1 Hb') as [L2 F2]. rewrite <- L2 in Hd. destruct (Forall_nth_lt _ _ d [] F2 Hd) as [L3 F3].
    rewrite <- L3 in He. apply (Forall_nth_lt _ _ e 0%Q F3 He). }
  apply Qmult_comp.
  - unfold under, surrounded. destruct (_ && _)%bool eqn:B.
    + destruct (En _ _ _ _ _ _ n k (Z.to_nat (Z.of_nat (y * fst (bv_stride g) + i * fst (bv_dil g)) - Z.of_nat (fst (bv_pad g))))
                  (Z.to_nat (Z.of_nat (x * snd (bv_stride g) + j * snd (bv_dil g)) - Z.of_nat (snd (bv_pad g)))) Ri Hn Hk) as (z & Ez & Lz); [lia|lia|].
      destruct (fx_quant_spec (p2 widthi) ri (entry4 0%Q input n k (Z.to_nat (Z.of_nat (y * fst (bv_stride g) + i * fst (bv_dil g)) - Z.of_nat (fst (bv_pad g))))
                  (Z.to_nat (Z.of_nat (x * snd (bv_stride g) + j * snd (bv_dil g)) - Z.of_nat (snd (bv_pad g))))) (p2_ge_1 _)) as (_ & _ & X). exact (X z Ez Lz).
    + destruct (fx_quant_spec (p2 widthi) ri 0 (p2_ge_1 _)) as (_ & _ & X). apply (X 0). { rewrite Qmult_0_l. reflexivity. } pose proof (p2_ge_1 widthi). cbn [Z.abs]. lia.
  - destruct (En _ _ _ _ _ _ o k i j Rw Ho Hk Hi Hj) as (z & Ez & Lz).
    destruct (fx_quant_spec (p2 widthw) rw (entry4 0%Q weight o k i j) (p2_ge_1 _)) as (_ & _ & X). exact (X z Ez Lz).
Qed.

(** ** TLUTConv2d *)
Lemma seq_off m b : seq m b = map (fun j => (m + j)%nat) (seq 0 b).
Proof.
  revert m. induction b as [|b IH]; intros m; [reflexivity|]. cbn [seq map]. rewrite Nat.add_0_r. f_equal.
  rewrite (IH (S m)), <- seq_shift, map_map. apply map_ext. intros. lia.
Qed.

Lemma tab_prod {A} a b (f : nat -> A) : tab (a * b) f = flat_map (fun i => tab b (fun j => f (i * b + j)%nat)) (seq 0 a).
Proof.
  induction a as [|a IH]; [reflexivity|]. replace (S a * b)%nat with (a * b + b)%nat by lia. unfold tab in *.
  rewrite seq_app, map_app, IH, seq_S, flat_map_app. f_equal. cbn [flat_map]. rewrite app_nil_r, Nat.add_0_l.
  rewrite seq_off, map_map. reflexivity.
Qed.

Lemma flat_map_ext_in {A B} (f g : A -> list B) l : (forall a, In a l -> f a = g a) -> flat_map f l = flat_map g l.
Proof. intros H. rewrite !flat_map_concat_map. f_equal. apply map_ext_in, H. Qed.

Lemma concat_tab2 {A} B n (f : nat -> nat -> A) : concat (tab2 B n f) = flat_map (fun b => tab n (f b)) (seq 0 B).
Proof. unfold tab2, tab. rewrite flat_map_concat_map. reflexivity. Qed.

Lemma flat_map_flat_map {A B D} (f : B -> list D) (g : A -> list B) l : flat_map f (flat_map g l) = flat_map (fun a => flat_map f (g a)) l.
Proof. induction l as [|a l IH]; [reflexivity|]. cbn [flat_map]. rewrite flat_map_app, IH. reflexivity. Qed.

Lemma seq_prod a b : seq 0 (a * b) = flat_map (fun i => map (fun j => (i * b + j)%nat) (seq 0 b)) (seq 0 a).
Proof. pose proof (tab_prod a b (fun i => i)) as E. unfold tab in E. rewrite map_id in E. exact E. Qed.

Lemma flat_map_map {A B D} (f : B -> list D) (g : A -> B) l : flat_map f (map g l) = flat_map (fun a => f (g a)) l.
Proof. induction l as [|a l IH]; [reflexivity|]. cbn [map flat_map]. rewrite IH. reflexivity. Qed.

Lemma brows_all g N C H W ho wo input : bconv_geom g C H W ho wo -> (1 <= N)%nat -> tensor_ok anyq N C H W input ->
  concat (brows g ho wo input) = under_all (bv_kernel g) (bv_stride g) (bv_dil g) (bv_pad g) N C H W ho wo input.
Proof.
  intros G HN T. destruct (bconv_rows_ok g N C H W ho wo input G HN T) as (_ & Sr & Ent).
  rewrite (qshape_tab _ _ _ Sr), concat_tab2, seq_prod, flat_map_flat_map. unfold under_all. apply flat_map_ext_in. intros n Hn. apply in_seq in Hn.
  rewrite flat_map_map, seq_prod, flat_map_flat_map. apply flat_map_ext_in. intros y Hy. apply in_seq in Hy.
  rewrite flat_map_map. apply flat_map_ext_in. intros x Hx. apply in_seq in Hx.
  rewrite tab_prod. apply flat_map_ext_in. intros k Hk. apply in_seq in Hk.
  rewrite tab_prod. apply flat_map_ext_in. intros i Hi. apply in_seq in Hi.
  unfold tab. apply map_ext_in. intros j Hj. apply in_seq in Hj. apply (Ent n y x k i j); lia.
Qed.

Definition tap_prod (f h : Q -> Q) (g : bconv) (C H W : nat) (input weight : list (image Q)) (n o y x : nat) : Q :=
  sumq_taps C (fst (bv_kernel g)) (snd (bv_kernel g)) (fun k i j =>
    f (under (bv_stride g) (bv_dil g) (bv_pad g) H W input n y x k i j) * h (entry4 0%Q weight o k i j))%Q.

Lemma tap_prod_rows f h g N C H W ho wo no input weight n o y x : bconv_geom g C H W ho wo -> (1 <= N)%nat -> tensor_ok anyq N C H W input ->
  tensor_ok anyq no C (fst (bv_kernel g)) (snd (bv_kernel g)) weight -> (n < N)%nat -> (o < no)%nat -> (y < ho)%nat -> (x < wo)%nat ->
  (dotq (C * (fst (bv_kernel g) * snd (bv_kernel g))) (fun i => f (qentry (brows g ho wo input) (row_index ho wo n y x) i))
     (fun i => h (qentry (map flat_filter weight) o i)) == tap_prod f h g C H W input weight n o y x)%Q.
Proof.
  intros G HN T Tw Hn Ho Hy Hx. destruct (bconv_rows_ok g N C H W ho wo input G HN T) as (_ & _ & Ent). destruct (bweight_ok _ _ _ _ _ Tw) as [_ Wnt].
  unfold tap_prod. rewrite dotq_taps. apply sumq_taps_ext. intros k i j Hk Hi Hj. rewrite Ent, Wnt by assumption. reflexivity.
Qed.

Lemma matmul_shape f h B n no input weight : qshape B n input -> qshape no n weight -> qshape B no (qmatmul_t (map (map f) input) (map (map h) weight)).
Proof.
  intros Hi Hw. assert (Sm : forall h r c m, qshape r c m -> qshape r c (map (map h) m)).
  { intros h' r c m [S1 S2]. split; [rewrite map_length; exact S1|]. rewrite Forall_map. revert S2. apply Forall_impl. intros a E. rewrite map_length. exact E. }
  apply (layer_shape qdot B n no _ _ None (Sm f _ _ _ Hi) (Sm h _ _ _ Hw) Logic.I).
Qed.

Lemma map_map_id (m : list (list Q)) : map (map (fun x => x)) m = m.
Proof. rewrite (map_ext _ (fun x => x)) by apply map_id. apply map_id. Qed.

(** What each mode computes: the operand functions. *)
Definition tlut_left (c : tlut_cfg) (ri : Z) : Q -> Q :=
  match tc_mode c with
  | FxpFxp => if tc_tin c then tlut_temporal (tc_widthi c) (tc_widtht c) (tc_cycle c) ri else tlut_plain (tc_widthi c) ri
  | FxpFp => if tc_tin c then tlut_temporal (tc_width c) (tc_widtht c) (tc_cycle c) ri else fun x => x
  | FpFp => if tc_tin c then tlut_mantissa (tc_width c) (tc_widtht c) (tc_cycle c) else fun x => x
  end.
Definition tlut_right (c : tlut_cfg) (rw : Z) : Q -> Q :=
  match tc_mode c with
  | FxpFxp => if tc_tin c then tlut_plain (tc_widthw c) rw else tlut_temporal (tc_widthw c) (tc_widtht c) (tc_cycle c) rw
  | FxpFp => if tc_tin c then fun x => x else tlut_temporal (tc_width c) (tc_widtht c) (tc_cycle c) rw
  | FpFp => if tc_tin c then fun x => x else tlut_mantissa (tc_width c) (tc_widtht c) (tc_cycle c)
  end.

Lemma tlut_apply_eq c input weight bias ri rw ro :
  (tc_mode c <> FpFp -> rshift_offset (concat input) (concat weight)
     (Z.of_nat (match tc_mode c with FxpFxp => tc_widthi c | _ => tc_width c end))
     (Z.of_nat (match tc_mode c with FxpFxp => tc_widthw c | _ => tc_width c end)) (tc_round c) (tc_qi c) (tc_qw c) = Ok (Some (ri, rw, ro))) ->
  tlut_apply c input weight bias = Ok (Some (add_bias bias (qmatmul_t (map (map (tlut_left c ri)) input) (map (map (tlut_right c rw)) weight)))).
Proof.
  intros E. unfold tlut_apply, tlut_left, tlut_right. destruct (tc_mode c) eqn:M.
  - rewrite E by discriminate. cbn [bind]. unfold tlut_fxpfxp. destruct (tc_tin c); reflexivity.
  - rewrite E by discriminate. cbn [bind]. unfold tlut_fxpfp. destruct (tc_tin c); rewrite ?map_map_id; reflexivity.
  - unfold tlut_fpfp. destruct (tc_tin c); rewrite ?map_map_id; reflexivity.
Qed.

Theorem tlutconv_taps : forall c g N C H W ho wo no input weight bias ri rw ro,
  bconv_geom g C H W ho wo -> (1 <= N)%nat -> tensor_ok anyq N C H W input ->
  tensor_ok anyq no C (fst (bv_kernel g)) (snd (bv_kernel g)) weight -> bias_ok no bias ->
  (tc_mode c <> FpFp -> rshift_offset (under_all (bv_kernel g) (bv_stride g) (bv_dil g) (bv_pad g) N C H W ho wo input) (flat4 weight)
     (Z.of_nat (match tc_mode c with FxpFxp => tc_widthi c | _ => tc_width c end))
     (Z.of_nat (match tc_mode c with FxpFxp => tc_widthw c | _ => tc_width c end)) (tc_round c) (tc_qi c) (tc_qw c) = Ok (Some (ri, rw, ro))) ->
  exists out, tlutconv c g input weight bias = Ok (Some out) /\ tensor_ok anyq N no ho wo out /\
    forall n o y x, (n < N)%nat -> (o < no)%nat -> (y < ho)%nat -> (x < wo)%nat ->
      (entry4 0%Q out n o y x == tap_prod (tlut_left c ri) (tlut_right c rw) g C H W input weight n o y x + bias_entry bias o)%Q.
Proof.
  intros c g N C H W ho wo no input weight bias ri rw ro G HN T Tw Hb Er.
  rewrite <- (brows_all g N C H W ho wo input G HN T) in Er. change (flat4 weight) with (concat (map flat_filter weight)) in Er.
  pose proof (tlut_apply_eq c _ _ None ri rw ro Er) as Ea.
  destruct (bconv_rows_ok g N C H W ho wo input G HN T) as (_ & Sr & _). destruct (bweight_ok _ _ _ _ _ Tw) as [Sw _].
  pose proof (matmul_shape (tlut_left c ri) (tlut_right c rw) _ _ no _ _ Sr Sw) as Sm.
  destruct (bconv_apply_ok g (fun rows w => tlut_apply c rows w None) N C H W ho wo no input weight bias _ G HN T Tw Hb Ea Sm) as (out & Eo & To & Out).
  exists out. split; [exact Eo|]. split; [exact To|]. intros n o y x Hn Ho Hy Hx. rewrite (Out n o y x Hn Ho Hy Hx).
  apply Qplus_comp; [|reflexivity]. assert (Hr := row_index_lt N ho wo n y x Hn Hy Hx).
  change (qentry (add_bias None (qmatmul_t (map (map (tlut_left c ri)) (brows g ho wo input)) (map (map (tlut_right c rw)) (map flat_filter weight))))
    (row_index ho wo n y x) o == tap_prod (tlut_left c ri) (tlut_right c rw) g C H W input weight n o y x)%Q.
  rewrite (matmul_entry (tlut_left c ri) (tlut_right c rw) _ _ no _ _ None _ _ Sr Sw Logic.I Hr Ho). cbn [bias_entry].
  rewrite Qplus_0_r. apply (tap_prod_rows _ _ g N C H W ho wo no); assumption.
Qed.

(** The layer. *)
Theorem tlut_apply_taps : forall c B n no input weight bias ri rw ro,
  qshape B n input -> qshape no n weight -> bias_ok no bias ->
  (tc_mode c <> FpFp -> rshift_offset (concat input) (concat weight)
     (Z.of_nat (match tc_mode c with FxpFxp => tc_widthi c | _ => tc_width c end))
     (Z.of_nat (match tc_mode c with FxpFxp => tc_widthw c | _ => tc_width c end)) (tc_round c) (tc_qi c) (tc_qw c) = Ok (Some (ri, rw, ro))) ->
  exists out, tlut_apply c input weight bias = Ok (Some out) /\
    forall b o, (b < B)%nat -> (o < no)%nat ->
      (qentry out b o == dotq n (fun i => tlut_left c ri (qentry input b i)) (fun i => tlut_right c rw (qentry weight o i)) + bias_entry bias o)%Q.
Proof.
  intros c B n no input weight bias ri rw ro Hi Hw Hb Er. eexists. split; [apply (tlut_apply_eq c _ _ bias ri rw ro Er)|].
  intros b o Lb Lo. apply (matmul_entry _ _ B n no); assumption.
Qed.

(** ** Uncovered pixels *)
Lemma under_covered g N C H W ho wo input input' n y x k i j : bconv_geom g C H W ho wo ->
  (forall n k v u, (n < N)%nat -> (k < C)%nat -> (v < H)%nat -> (u < W)%nat -> covered (bv_kernel g) (bv_stride g) (bv_dil g) (bv_pad g) ho wo v u ->
     entry4 0%Q input n k v u = entry4 0%Q input' n k v u) ->
  (n < N)%nat -> (y < ho)%nat -> (x < wo)%nat -> (k < C)%nat -> (i < fst (bv_kernel g))%nat -> (j < snd (bv_kernel g))%nat ->
  under (bv_stride g) (bv_dil g) (bv_pad g) H W input n y x k i j = under (bv_stride g) (bv_dil g) (bv_pad g) H W input' n y x k i j.
Proof.
  intros G E Hn Hy Hx Hk Hi Hj. unfold under, surrounded.
  match goal with |- (if ?b then _ else _) = _ => destruct b eqn:B end; [|reflexivity].
  apply E; [exact Hn|exact Hk|lia|lia|]. exists y, x, i, j. repeat split; try assumption; lia.
Qed.

Lemma brows_covered g N C H W ho wo input input' : bconv_geom g C H W ho wo -> (1 <= N)%nat ->
  tensor_ok anyq N C H W input -> tensor_ok anyq N C H W input' ->
  (forall n k v u, (n < N)%nat -> (k < C)%nat -> (v < H)%nat -> (u < W)%nat -> covered (bv_kernel g) (bv_stride g) (bv_dil g) (bv_pad g) ho wo v u ->
     entry4 0%Q input n k v u = entry4 0%Q input' n k v u) ->
  brows g ho wo input = brows g ho wo input'.
Proof.
  intros G HN T T' E. destruct (bconv_rows_ok g N C H W ho wo input G HN T) as (_ & Sr & Ent).
  destruct (bconv_rows_ok g N C H W ho wo input' G HN T') as (_ & Sr' & Ent').
  set (kh := fst (bv_kernel g)) in *. set (kw := snd (bv_kernel g)) in *.
  rewrite (qshape_tab _ _ _ Sr), (qshape_tab _ _ _ Sr'). unfold tab2. apply tab_ext. intros r Hr. apply tab_ext. intros q Hq.
  pose proof G as (HC & HH & K1 & K2 & S1 & S2 & O1 & O2 & P1 & P2). fold kh in K1. fold kw in K2.
  assert (X : exists n y x, (n < N)%nat /\ (y < ho)%nat /\ (x < wo)%nat /\ r = row_index ho wo n y x).
  { exists (r / (ho * wo))%nat, (r mod (ho * wo) / wo)%nat, (r mod (ho * wo) mod wo)%nat.
    pose proof (Nat.div_mod r (ho * wo) ltac:(nia)). pose proof (Nat.div_mod (r mod (ho * wo)) wo ltac:(lia)).
    pose proof (Nat.mod_upper_bound r (ho * wo) ltac:(nia)). pose proof (Nat.mod_upper_bound (r mod (ho * wo)) wo ltac:(lia)).
    unfold row_index. repeat split; try lia.
    - apply Nat.div_lt_upper_bound; nia.
    - apply Nat.div_lt_upper_bound; nia. }
  assert (Y : exists k i j, (k < C)%nat /\ (i < kh)%nat /\ (j < kw)%nat /\ q = tap_index kh kw k i j).
  { exists (q / (kh * kw))%nat, (q mod (kh * kw) / kw)%nat, (q mod (kh * kw) mod kw)%nat.
    pose proof (Nat.div_mod q (kh * kw) ltac:(nia)). pose proof (Nat.div_mod (q mod (kh * kw)) kw ltac:(lia)).
    pose proof (Nat.mod_upper_bound q (kh * kw) ltac:(nia)). pose proof (Nat.mod_upper_bound (q mod (kh * kw)) kw ltac:(lia)).
    unfold tap_index. repeat split; try lia.
    - apply Nat.div_lt_upper_bound; nia.
    - apply Nat.div_lt_upper_bound; nia. }
  destruct X as (n & y & x & Hn & Hy & Hx & ->). destruct Y as (k & i & j & Hk & Hi & Hj & ->).
  rewrite Ent, Ent' by assumption. apply (under_covered g N C H W ho wo); assumption.
Qed.

Lemma bconv_apply_covered g f N C H W ho wo input input' weight bias : bconv_geom g C H W ho wo -> (1 <= N)%nat ->
  tensor_ok anyq N C H W input -> tensor_ok anyq N C H W input' ->
  (forall n k v u, (n < N)%nat -> (k < C)%nat -> (v < H)%nat -> (u < W)%nat -> covered (bv_kernel g) (bv_stride g) (bv_dil g) (bv_pad g) ho wo v u ->
     entry4 0%Q input n k v u = entry4 0%Q input' n k v u) ->
  bconv_apply g f input weight bias = bconv_apply g f input' weight bias.
Proof.
  intros G HN T T' E. unfold bconv_apply. destruct (bconv_rows_ok g N C H W ho wo input G HN T) as (-> & _).
  destruct (bconv_rows_ok g N C H W ho wo input' G HN T') as (-> & _). rewrite (brows_covered g N C H W ho wo input input' G HN T T' E).
  cbn [bind]. destruct (f _ _) as [[mm|]|e]; cbn [bind]; try reflexivity.
  pose proof G as (HC & HH & _). unfold bconv_out, bconv_size.
  rewrite (tensor_size anyq N C H W input T HN HC HH), (tensor_size anyq N C H W input' T' HN HC HH).
  destruct T as [-> _], T' as [-> _]. reflexivity.
Qed.

Theorem tlutconv_covered : forall c g N C H W ho wo input input' weight bias, bconv_geom g C H W ho wo -> (1 <= N)%nat ->
  tensor_ok anyq N C H W input -> tensor_ok anyq N C H W input' ->
  (forall n k v u, (n < N)%nat -> (k < C)%nat -> (v < H)%nat -> (u < W)%nat -> covered (bv_kernel g) (bv_stride g) (bv_dil g) (bv_pad g) ho wo v u ->
     entry4 0%Q input n k v u = entry4 0%Q input' n k v u) ->
  tlutconv c g input weight bias = tlutconv c g input' weight bias.
Proof. intros. unfold tlutconv. apply (bconv_apply_covered g _ N C H W ho wo); assumption. Qed.

Theorem hubconv_covered : forall c g widthi widthw r qi qw N C H W ho wo input input' weight bias, bconv_geom g C H W ho wo -> (1 <= N)%nat ->
  tensor_ok anyq N C H W input -> tensor_ok anyq N C H W input' ->
  (forall n k v u, (n < N)%nat -> (k < C)%nat -> (v < H)%nat -> (u < W)%nat -> covered (bv_kernel g) (bv_stride g) (bv_dil g) (bv_pad g) ho wo v u ->
     entry4 0%Q input n k v u = entry4 0%Q input' n k v u) ->
  rshift_offset (flat4 input) (flat4 weight) (Z.of_nat widthi - 1) (Z.of_nat widthw - 1) r qi qw =
  rshift_offset (flat4 input') (flat4 weight) (Z.of_nat widthi - 1) (Z.of_nat widthw - 1) r qi qw ->
  hubconv c g widthi widthw r qi qw input weight bias = hubconv c g widthi widthw r qi qw input' weight bias /\
  fxpconv g widthi widthw r qi qw input weight bias = fxpconv g widthi widthw r qi qw input' weight bias.
Proof.
  intros c g widthi widthw r qi qw N C H W ho wo input input' weight bias G HN T T' E Er. unfold hubconv, fxpconv. rewrite Er.
  destruct (rshift_offset (flat4 input') _ _ _ _ _ _) as [o|e]; cbn [bind]; [|split; reflexivity].
  split; apply (bconv_apply_covered g _ N C H W ho wo); assumption.
Qed.

(** ** Construction *)
Theorem tlut_new_ok : forall temporal formati formatw widthi widthw widtht qi qw cycle rnd signmag c,
  tlut_new temporal formati formatw widthi widthw widtht qi qw cycle rnd signmag = Ok c <->
  exists tin fi fw r, temporal_parse temporal = Ok tin /\ format_parse formati = Ok fi /\ format_parse formatw = Ok fw /\
    rounding_parse rnd = Ok r /\ signmag = true /\ (0 < qi <= 1)%Q /\ (0 < qw <= 1)%Q /\
    c = {| tc_mode := tlut_mode fi fw; tc_tin := tin; tc_widthi := widthi - 1; tc_widthw := widthw - 1;
           tc_width := if tin then format_width fi widthi else format_width fw widthw; tc_widtht := widtht;
           tc_cycle := tlut_cycle widtht cycle; tc_round := r; tc_qi := qi; tc_qw := qw |}.
Proof.
  intros temporal formati formatw widthi widthw widtht qi qw cycle rnd signmag c. unfold tlut_new.
  assert (Q1 : forall q, qgt q 0 && Qle_bool q 1 = true <-> (0 < q <= 1)%Q).
  { intros q. unfold qgt. rewrite andb_true_iff, negb_true_iff, Qle_bool_iff. rewrite <- not_true_iff_false, Qle_bool_iff. intuition lra. }
  destruct (temporal_parse temporal) as [tin|e] eqn:Et; cbn [bind]; [|split; [discriminate|intros (? & ? & ? & ? & ? & _); discriminate]].
  destruct (format_parse formati) as [fi|e] eqn:Ei; cbn [bind]; [|split; [discriminate|intros (? & ? & ? & ? & _ & ? & _); discriminate]].
  destruct (format_parse formatw) as [fw|e] eqn:Ew; cbn [bind]; [|split; [discriminate|intros (? & ? & ? & ? & _ & _ & ? & _); discriminate]].
  specialize (Q1 qi) as Qi. specialize (Q1 qw) as Qw.
  destruct (qgt qi 0 && Qle_bool qi 1); cbn [negb]; [|split; [discriminate|intros (? & ? & ? & ? & _ & _ & _ & _ & _ & H & _); apply Qi in H; discriminate]].
  destruct (qgt qw 0 && Qle_bool qw 1); cbn [negb]; [|split; [discriminate|intros (? & ? & ? & ? & _ & _ & _ & _ & _ & _ & H & _); apply Qw in H; discriminate]].
  destruct (rounding_parse rnd) as [r|e] eqn:Er; cbn [bind]; [|split; [discriminate|intros (? & ? & ? & ? & _ & _ & _ & H & _); discriminate]].
  destruct signmag; cbn [negb]; [|split; [discriminate|intros (? & ? & ? & ? & _ & _ & _ & _ & H & _); discriminate]].
  split.
  - intros E. exists tin, fi, fw, r. split; [reflexivity|]. split; [reflexivity|]. split; [reflexivity|]. split; [reflexivity|]. split; [reflexivity|].
    split; [apply Qi; reflexivity|]. split; [apply Qw; reflexivity|]. congruence.
  - intros (tin' & fi' & fw' & r' & A & B & D & E & _ & _ & _ & ->).
    injection A as ->. injection B as ->. injection D as ->. injection E as ->. reflexivity.
Qed.

(** ** Full cycle *)
Theorem tlutconv_fixed : forall temporal formati formatw widthi widthw widtht qi qw rnd c tin rd g N C H W ho wo no input weight bias ri rw ro,
  tlut_new temporal formati formatw (S widthi) (S widthw) widtht qi qw None rnd true = Ok c ->
  temporal_parse temporal = Ok tin -> format_parse formati = Ok TFxp -> format_parse formatw = Ok TFxp -> rounding_parse rnd = Ok rd -> (1 <= widtht)%nat ->
  bconv_geom g C H W ho wo -> (1 <= N)%nat -> tensor_ok anyq N C H W input ->
  tensor_ok anyq no C (fst (bv_kernel g)) (snd (bv_kernel g)) weight -> bias_ok no bias ->
  rshift_offset (under_all (bv_kernel g) (bv_stride g) (bv_dil g) (bv_pad g) N C H W ho wo input) (flat4 weight)
     (Z.of_nat widthi) (Z.of_nat widthw) rd qi qw = Ok (Some (ri, rw, ro)) ->
  exists out, tlutconv c g input weight bias = Ok (Some out) /\ tensor_ok anyq N no ho wo out /\
    forall n o y x, (n < N)%nat -> (o < no)%nat -> (y < ho)%nat -> (x < wo)%nat ->
      (entry4 0%Q out n o y x ==
       sumq_taps C (fst (bv_kernel g)) (snd (bv_kernel g)) (fun k i j =>
         tlut_plain widthi ri (under (bv_stride g) (bv_dil g) (bv_pad g) H W input n y x k i j) * tlut_plain widthw rw (entry4 0%Q weight o k i j))
       + bias_entry bias o)%Q.
Proof.
  intros temporal formati formatw widthi widthw widtht qi qw rnd c tin rd g N C H W ho wo no input weight bias ri rw ro Ec Pt Pi Pw Pr Ht G HN T Tw Hb Er.
  apply tlut_new_ok in Ec. destruct Ec as (tin' & fi & fw & r & A & B & D & E & _ & _ & _ & Ec).
  assert (tin' = tin) by congruence. assert (fi = TFxp) by congruence. assert (fw = TFxp) by congruence. assert (r = rd) by congruence. subst tin' fi fw r.
  cbn [tlut_mode format_width] in Ec. replace (S widthi - 1)%nat with widthi in Ec by lia. replace (S widthw - 1)%nat with widthw in Ec by lia.
  destruct (tlutconv_taps c g N C H W ho wo no input weight bias ri rw ro G HN T Tw Hb) as (out & Eo & To & Out).
  { intros _. subst c. exact Er. }
  exists out. split; [exact Eo|]. split; [exact To|]. intros n o y x Hn Ho Hy Hx. rewrite (Out n o y x Hn Ho Hy Hx).
  apply Qplus_comp; [|reflexivity]. unfold tap_prod. apply sumq_taps_ext. intros k i j _ _ _. subst c. unfold tlut_left, tlut_right, tlut_cycle.
  cbn [tc_mode tc_tin tc_widthi tc_widthw tc_widtht tc_cycle]. destruct tin; rewrite tlut_temporal_full by exact Ht; reflexivity.
Qed.

(** Mixed formats: the layer. *)
Theorem tlut_mixed : forall temporal formati formatw widthi widthw widtht qi qw rnd c tin fi fw rd B n no input weight bias ri rw ro,
  tlut_new temporal formati formatw widthi widthw widtht qi qw None rnd true = Ok c ->
  temporal_parse temporal = Ok tin -> format_parse formati = Ok fi -> format_parse formatw = Ok fw -> rounding_parse rnd = Ok rd -> (1 <= widtht)%nat ->
  (fi = TFxp /\ fw <> TFxp \/ fi <> TFxp /\ fw = TFxp) ->
  qshape B n input -> qshape no n weight -> bias_ok no bias ->
  let width := if tin then format_width fi widthi else format_width fw widthw in
  rshift_offset (concat input) (concat weight) (Z.of_nat width) (Z.of_nat width) rd qi qw = Ok (Some (ri, rw, ro)) ->
  exists out, tlut_apply c input weight bias = Ok (Some out) /\
    forall b o, (b < B)%nat -> (o < no)%nat ->
      (qentry out b o ==
       (if tin then dotq n (fun i => tlut_plain width ri (qentry input b i)) (qentry weight o)
        else dotq n (qentry input b) (fun i => tlut_plain width rw (qentry weight o i))) + bias_entry bias o)%Q.
Proof.
  intros temporal formati formatw widthi widthw widtht qi qw rnd c tin fi fw rd B n no input weight bias ri rw ro Ec Pt Pi Pw Pr Ht Mx Hi Hw Hb width Er.
  apply tlut_new_ok in Ec. destruct Ec as (tin' & fi' & fw' & r & A & B' & D & E & _ & _ & _ & Ec).
  assert (tin' = tin) by congruence. assert (fi' = fi) by congruence. assert (fw' = fw) by congruence. assert (r = rd) by congruence. subst tin' fi' fw' r.
  assert (M : tlut_mode fi fw = FxpFp) by (destruct fi, fw; cbn; intuition congruence). rewrite M in Ec. fold width in Ec.
  destruct (tlut_apply_taps c B n no input weight bias ri rw ro Hi Hw Hb) as (out & Eo & Out).
  { intros _. subst c. exact Er. }
  exists out. split; [exact Eo|]. intros b o Lb Lo. rewrite (Out b o Lb Lo). apply Qplus_comp; [|reflexivity].
  subst c. unfold tlut_left, tlut_right, tlut_cycle. cbn [tc_mode tc_tin tc_width tc_widtht tc_cycle].
  destruct tin; apply dotq_ext; intros i _; (split; [try reflexivity; apply tlut_temporal_full, Ht|try reflexivity; apply tlut_temporal_full, Ht]).
Qed.
