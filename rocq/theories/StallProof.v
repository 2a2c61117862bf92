(** Pauses. *)
Require Import Verif.BaseLemmas Verif.StallSpec Verif.AddModel Verif.AddProof Verif.GenModel Verif.GenProof Verif.KernelModel Verif.KernelProof Verif.ShuffleModel Verif.LinearModel Verif.LinearProof Verif.ChainProof Verif.ProgProof Verif.HubProof Verif.NetSpec Verif.NetProof Verif.MonoProof Verif.FaultProof Verif.ShuffleProof Verif.ConvModel Verif.ConvProof Verif.ShiftSpec Verif.ShiftProof.
Open Scope Z_scope.

Lemma stall_firstn gaps : forall n t, exists gaps' t', forall (A : Type) (z : A) xs, length xs = n -> firstn t (stall z gaps xs) = stall z gaps' (firstn t' xs).
Proof.
  induction gaps as [|g gs IH]; intros n t; [exists [], t; reflexivity|].
  destruct (Nat.le_gt_cases t g) as [C|C].
  - exists [t], 0%nat. intros A z xs _. cbn [stall firstn]. rewrite app_nil_r, firstn_app, repeat_length. replace (t - g)%nat with 0%nat by lia. cbn [firstn]. rewrite app_nil_r.
    replace g with (t + (g - t))%nat by lia. rewrite repeat_app, firstn_app, repeat_length, Nat.sub_diag. cbn [firstn]. rewrite app_nil_r. apply firstn_all2. rewrite repeat_length. lia.
  - destruct n as [|n].
    + exists [g], 0%nat. intros A z xs L. destruct xs; [|discriminate]. cbn [stall firstn]. rewrite app_nil_r. apply firstn_all2. rewrite repeat_length. lia.
    + destruct (IH n (t - g - 1)%nat) as (gs' & t' & H). exists (g :: gs'), (S t'). intros A z xs L. destruct xs as [|x r]; [discriminate|]. cbn [length] in L.
      cbn [stall firstn]. rewrite firstn_app, repeat_length, (firstn_all2 (repeat z g)) by (rewrite repeat_length; lia). f_equal.
      replace (t - g)%nat with (S (t - g - 1)) by lia. cbn [firstn]. f_equal. apply H. lia.
Qed.
Lemma stall_length {A C} (z : A) (z' : C) gaps : forall xs ys, length xs = length ys -> length (stall z gaps xs) = length (stall z' gaps ys).
Proof.
  induction gaps as [|g gs IH]; intros xs ys L; [exact L|]. cbn [stall]. rewrite !app_length, !repeat_length. f_equal.
  destruct xs, ys; try discriminate; [reflexivity|]. cbn [length] in *. f_equal. apply IH. lia.
Qed.
Lemma stall_Forall {A} (P : A -> Prop) z gaps : P z -> forall xs, Forall P xs -> Forall P (stall z gaps xs).
Proof.
  intros Hz. induction gaps as [|g gs IH]; intros xs Hx; [exact Hx|]. cbn [stall]. apply Forall_app. split.
  - apply Forall_forall. intros y Hy. apply repeat_spec in Hy. subst y. exact Hz.
  - destruct Hx; constructor; [assumption|]. apply IH. assumption.
Qed.
Lemma stall_total {A} (f : A -> Z) z gaps : f z = 0 -> forall xs, zsum (map f (stall z gaps xs)) = zsum (map f xs).
Proof.
  intros Hz. induction gaps as [|g gs IH]; intros xs; [reflexivity|]. cbn [stall]. rewrite map_app, zsum_app.
  replace (zsum (map f (repeat z g))) with 0 by (induction g as [|g IHg]; [reflexivity|]; cbn [repeat map zsum]; lia).
  destruct xs as [|x r]; [reflexivity|]. cbn [map zsum]. rewrite IH. lia.
Qed.
Lemma ones_zsum xs : bits xs -> ones xs = zsum (map (fun x => x) xs).
Proof.
  induction 1 as [|x xs Hb _ IH]; [reflexivity|]. change (x :: xs) with ([x] ++ xs). rewrite ones_app, map_app, zsum_app, IH.
  destruct Hb as [-> | ->]; reflexivity.
Qed.
Lemma ones_stall gaps xs : bits xs -> ones (stall 0 gaps xs) = ones xs.
Proof.
  intros Hx. rewrite !ones_zsum; [|exact Hx|apply stall_Forall; [left; reflexivity|exact Hx]]. apply stall_total. reflexivity.
Qed.
Lemma counts_eq : forall xs ys, bits xs -> bits ys -> length xs = length ys -> (forall t, ones (firstn t xs) = ones (firstn t ys)) -> xs = ys.
Proof.
  induction xs as [|x xs IH]; intros [|y ys] Hx Hy L H; try discriminate; [reflexivity|].
  assert (E : x = y).
  { specialize (H 1%nat). cbn [firstn] in H. pose proof (Forall_inv Hx) as Bx. pose proof (Forall_inv Hy) as By. destruct Bx as [-> | ->], By as [-> | ->]; try reflexivity; discriminate H. }
  subst y. f_equal. apply IH; [exact (Forall_inv_tail Hx)|exact (Forall_inv_tail Hy)|cbn in L; lia|].
  intros t. specialize (H (S t)). cbn [firstn] in H. change (x :: firstn t xs) with ([x] ++ firstn t xs) in H. change (x :: firstn t ys) with ([x] ++ firstn t ys) in H. rewrite !ones_app in H. lia.
Qed.
(** Bit streams with the counts of paused ones are the paused ones. *)
Lemma stall_counts gaps xs ys : bits xs -> bits ys -> length ys = length (stall 0 gaps xs) ->
  (forall t gaps' t', (forall (A : Type) (z : A) l, length l = length xs -> firstn t (stall z gaps l) = stall z gaps' (firstn t' l)) ->
     ones (firstn t ys) = ones (firstn t' xs)) -> ys = stall 0 gaps xs.
Proof.
  intros Hx Hy L H. apply counts_eq; [exact Hy|apply stall_Forall; [left; reflexivity|exact Hx]|exact L|]. intros t.
  destruct (stall_firstn gaps (length xs) t) as (gaps' & t' & E). rewrite (H t gaps' t' E), (E Z 0 xs eq_refl). symmetry. apply ones_stall. apply BaseLemmas.Forall_firstn, Hx.
Qed.

Theorem mul_stall : forall B rng gaps xs, (0 < length rng)%nat -> bits xs ->
  outs (fsumul_static_step Unipolar B rng) fsumul_static_init (stall 0 gaps xs) = stall 0 gaps (outs (fsumul_static_step Unipolar B rng) fsumul_static_init xs).
Proof.
  intros B rng gaps xs Hr Hx. assert (Hs : forall g ys, bits ys -> bits (stall 0 g ys)) by (intros; apply stall_Forall; [left; reflexivity|assumption]).
  destruct (mul_static_count Unipolar B rng xs Hr Hx) as [B1 _]. destruct (mul_static_count Unipolar B rng _ Hr (Hs gaps xs Hx)) as [B2 _].
  apply stall_counts; [exact B1|exact B2|rewrite outs_length; apply stall_length; rewrite outs_length; reflexivity|].
  intros t gaps' t' E. rewrite outs_length in E. rewrite <- !BaseLemmas.outs_firstn, (E Z 0 xs eq_refl).
  assert (Ht : bits (firstn t' xs)) by (apply BaseLemmas.Forall_firstn, Hx).
  rewrite (proj2 (mul_static_count Unipolar B rng _ Hr (Hs gaps' _ Ht))), (proj2 (mul_static_count Unipolar B rng _ Hr Ht)).
  rewrite ones_stall by exact Ht. reflexivity.
Qed.

Lemma total_ones_stall e gaps cols : total_ones (stall (repeat 0 e) gaps cols) = total_ones cols.
Proof. unfold total_ones. apply stall_total. induction e as [|e IH]; [reflexivity|]. cbn [repeat]. change (0 :: repeat 0 e) with ([0] ++ repeat 0 e). rewrite ones_app, IH. reflexivity. Qed.

Theorem add_stall : forall c e gaps cols, 0 < e -> resolved_entry None (fa_entry c) e = e -> (resolved_scale None (fa_scale c) e == inject_Z e)%Q ->
  Forall bits cols -> Forall (fun col => zlen col = e) cols -> (inject_Z (2 * e - 1) <= qpow2 (fa_depth c - 2))%Q ->
  outs (fsuadd_step c) (fsuadd_init c) (stall (repeat 0 (Z.to_nat e)) gaps cols) = stall 0 gaps (outs (fsuadd_step c) (fsuadd_init c) cols).
Proof.
  intros c e gaps cols He Hen Hsc Hb Hl Hd. set (z := repeat 0 (Z.to_nat e)).
  assert (Zb : bits z) by (apply Forall_forall; intros x Hx; apply repeat_spec in Hx; subst x; left; reflexivity).
  assert (Zl : zlen z = e) by (unfold zlen, z; rewrite repeat_length; lia).
  assert (X : forall cols, Forall bits cols -> Forall (fun col => zlen col = e) cols -> ones (outs (fsuadd_step c) (fsuadd_init c) cols) = total_ones cols / e)
    by (intros; apply fsuadd_scaled_exact; assumption).
  apply stall_counts; [apply fsuadd_bits|apply fsuadd_bits|rewrite outs_length; apply stall_length; rewrite outs_length; reflexivity|].
  intros t gaps' t' E. rewrite outs_length in E. rewrite <- !BaseLemmas.outs_firstn, (E _ z cols eq_refl).
  pose proof (BaseLemmas.Forall_firstn _ t' _ Hb) as Hb'. pose proof (BaseLemmas.Forall_firstn _ t' _ Hl) as Hl'.
  rewrite !X; try assumption; try (apply stall_Forall; assumption). f_equal. apply total_ones_stall.
Qed.

Theorem add_stall_scale : forall c e s gaps cols, 0 < e -> resolved_entry None (fa_entry c) e = e -> resolved_scale None (fa_scale c) e = s ->
  fa_mode c = Unipolar -> (inject_Z e <= s)%Q -> (2 * s <= qpow2 (fa_depth c - 2))%Q ->
  Forall bits cols -> Forall (fun col => zlen col = e) cols ->
  outs (fsuadd_step c) (fsuadd_init c) (stall (repeat 0 (Z.to_nat e)) gaps cols) = stall 0 gaps (outs (fsuadd_step c) (fsuadd_init c) cols).
Proof.
  intros c e s gaps cols He Hen Hsc Hm Hes Hd Hb Hl. set (z := repeat 0 (Z.to_nat e)).
  assert (Zb : bits z) by (apply Forall_forall; intros x Hx; apply repeat_spec in Hx; subst x; left; reflexivity).
  assert (Zl : zlen z = e) by (unfold zlen, z; rewrite repeat_length; lia).
  assert (X : forall cols, Forall bits cols -> Forall (fun col => zlen col = e) cols -> ones (outs (fsuadd_step c) (fsuadd_init c) cols) = Qfloor (inject_Z (total_ones cols) / s)).
  { intros cs B1 B2. rewrite (fsuadd_floor c e s cs He Hen Hsc Hes Hd B1 B2). apply Qfloor_comp. rewrite Hm. unfold mode_offset.
    setoid_replace (inject_Z (total_ones cs) - inject_Z (zlen cs) * 0)%Q with (inject_Z (total_ones cs)) by ring. reflexivity. }
  apply stall_counts; [apply fsuadd_bits|apply fsuadd_bits|rewrite outs_length; apply stall_length; rewrite outs_length; reflexivity|].
  intros t gaps' t' E. rewrite outs_length in E. rewrite <- !BaseLemmas.outs_firstn, (E _ z cols eq_refl).
  pose proof (BaseLemmas.Forall_firstn _ t' _ Hb) as Hb'. pose proof (BaseLemmas.Forall_firstn _ t' _ Hl) as Hl'.
  rewrite !X; try assumption; try (apply stall_Forall; assumption). unfold z. rewrite total_ones_stall. reflexivity.
Qed.

Theorem linear_stall : forall l B gaps h h', patient l -> (1 <= B)%nat -> Forall (batch_ok B (pc_in (fst l))) h -> Forall (batch_ok B (pc_in (fst l))) h' ->
  (forall b, (b < B)%nat -> length h' = length (stall tt (gaps b) (map (fun _ => tt) h))) -> stalled B (pc_in (fst l)) gaps h h' ->
  exists os os',
    outputs (run_r (flin_step (fst l) (flin_acc_cfg (fst l) None (snd l))) (flin_init (fst l)) (no_args h)) = Some os /\
    outputs (run_r (flin_step (fst l) (flin_acc_cfg (fst l) None (snd l))) (flin_init (fst l)) (no_args h')) = Some os' /\
    length os = length h /\ length os' = length h' /\
    Forall (batch_ok B (pc_out (fst l))) os /\ Forall (batch_ok B (pc_out (fst l))) os' /\ stalled B (pc_out (fst l)) gaps os os'.
Proof.
  intros [c d] B gaps h h' ((Hs & Hr & Hw & He & Hd) & Hm & Hbias) HB H1 H2 HL Hx. cbn [fst snd] in *.
  destruct (flin_rate c d B h Hs Hr Hw HB He Hd H1) as (os1 & E1 & L1 & Sh1 & _).
  destruct (flin_rate c d B h' Hs Hr Hw HB He Hd H2) as (os2 & E2 & L2 & Sh2 & _).
  exists os1, os2. split; [exact E1|]. split; [exact E2|]. split; [exact L1|]. split; [exact L2|]. split; [exact Sh1|]. split; [exact Sh2|].
  intros b o Hb Ho. specialize (HL b Hb).
  assert (LL : forall A (z : A) l, length l = length h -> length (stall z (gaps b) l) = length h').
  { intros A z l E. rewrite HL. apply stall_length. rewrite map_length. exact E. }
  apply stall_counts.
  - apply (LinearProof.lane_bits B (pc_out c)); assumption.
  - apply (LinearProof.lane_bits B (pc_out c)); assumption.
  - rewrite LL; rewrite !LinearProof.lane_length; congruence.
  - intros t gaps' t' E. rewrite LinearProof.lane_length, L1 in E.
    destruct (flin_rate c d B (firstn t' h) Hs Hr Hw HB He Hd (BaseLemmas.Forall_firstn _ _ _ H1)) as (p1 & F1 & _ & _ & G1).
    destruct (flin_rate c d B (firstn t h') Hs Hr Hw HB He Hd (BaseLemmas.Forall_firstn _ _ _ H2)) as (p2' & F2 & _ & _ & G2).
    rewrite <- no_args_firstn in F1, F2. rewrite (run_r_firstn _ t' _ _ _ E1) in F1. rewrite (run_r_firstn _ t _ _ _ E2) in F2.
    injection F1 as <-. injection F2 as <-. specialize (G1 b o Hb Ho). specialize (G2 b o Hb Ho).
    rewrite LinearProof.lane_firstn in G1, G2. rewrite G1, G2, Hbias. f_equal. f_equal. f_equal. apply map_ext_in. intros i Hi. apply in_seq in Hi.
    assert (Hi' : (i < pc_in c)%nat) by lia.
    rewrite !LinearProof.lane_firstn, (Hx b i Hb Hi'), E by (rewrite LinearProof.lane_length; reflexivity).
    assert (Hbt : bits (firstn t' (lane h b i))) by (apply BaseLemmas.Forall_firstn; apply (LinearProof.lane_bits B (pc_in c)); assumption).
    rewrite Hm, mul_stall by (first [exact Hr|exact Hbt]). apply ones_stall. apply mul_static_count; [exact Hr|exact Hbt].
Qed.

Theorem net_stall : forall ls, Forall patient ls -> forall n B gaps h h', fitted n ls -> (1 <= B)%nat ->
  Forall (batch_ok B n) h -> Forall (batch_ok B n) h' ->
  (forall b, (b < B)%nat -> length h' = length (stall tt (gaps b) (map (fun _ => tt) h))) -> stalled B n gaps h h' ->
  exists os os',
    outputs (run_r (net_step (map plain ls)) (net_init (map plain ls)) h) = Some os /\
    outputs (run_r (net_step (map plain ls)) (net_init (map plain ls)) h') = Some os' /\
    length os = length h /\ length os' = length h' /\ stalled B (width_out n ls) gaps os os'.
Proof.
  induction 1 as [|l ls Hl Hls IH]; intros n B gaps h h' F HB H1 H2 HL Hx.
  - exists h, h'. cbn [map]. split; [apply net_nil_run|]. split; [apply net_nil_run|]. split; [reflexivity|]. split; [reflexivity|]. exact Hx.
  - cbn [fitted] in F. destruct F as (S1 & I1 & F). subst n.
    destruct (linear_stall l B gaps h h' Hl HB H1 H2 HL Hx) as (m1 & m2 & E1 & E2 & L1 & L2 & Sh1 & Sh2 & Hm).
    assert (HL' : forall b, (b < B)%nat -> length m2 = length (stall tt (gaps b) (map (fun _ => tt) m1))).
    { intros b Hb. rewrite L2, (HL b Hb). apply stall_length. rewrite !map_length. symmetry. exact L1. }
    destruct (IH _ B gaps m1 m2 F HB Sh1 Sh2 HL' Hm) as (os1 & os2 & R1 & R2 & K1 & K2 & Ho).
    exists os1, os2. cbn [map]. unfold net_init. cbn [map]. split; [exact (net_run _ _ _ _ _ _ _ _ E1 R1)|]. split; [exact (net_run _ _ _ _ _ _ _ _ E2 R2)|].
    split; [congruence|]. split; [congruence|]. exact Ho.
Qed.

Lemma idle_stall {S A C} (step : S -> A -> S * C) (I : S -> Prop) z z' (P : A -> Prop) : (forall s, I s -> step s z = (s, z')) ->
  (forall s x, I s -> P x -> I (fst (step s x))) -> forall gaps xs s, I s -> Forall P xs -> outs step s (stall z gaps xs) = stall z' gaps (outs step s xs).
Proof.
  intros Hz Hi. induction gaps as [|g gs IH]; intros xs s Hs Hx; [reflexivity|]. cbn [stall].
  assert (Rg : forall k l, outs step s (repeat z k ++ l) = repeat z' k ++ outs step s l).
  { induction k as [|k IHk]; intros l; [reflexivity|]. cbn [repeat app]. rewrite outs_cons, Hz by exact Hs. cbn [fst snd]. rewrite IHk. reflexivity. }
  rewrite Rg. f_equal. destruct Hx as [|x r Px Hr]; [reflexivity|]. rewrite !outs_cons. f_equal. apply IH; [apply Hi; assumption|exact Hr].
Qed.
Theorem skewed_stall : forall depth gaps h, Forall bitpair h ->
  outs (skewedsync_step depth) skewedsync_init (stall (0, 0) gaps h) = stall (0, 0) gaps (outs (skewedsync_step depth) skewedsync_init h).
Proof.
  intros depth gaps h Hh. assert (Hp : 0 < p2 depth) by (unfold p2; lia).
  apply (idle_stall _ (fun s => 0 <= s <= p2 depth - 1) _ _ bitpair); [| |unfold skewedsync_init; lia|exact Hh].
  - intros s Hs. unfold skewedsync_step. cbn [Z.add Z.sub Z.mul b2z]. f_equal. unfold zclamp. cbn. lia.
  - intros s [x y] Hs [Hx Hy]. destruct (skewedsync_step depth s (x, y)) as [s' [o1 o2]] eqn:E. exact (proj1 (skewed_step_facts depth s x y Hx Hy Hs s' o1 o2 E)).
Qed.

Lemma stall_repeat {A} (z : A) gaps : forall n, stall z gaps (repeat z n) = repeat z (length (stall tt gaps (repeat tt n))).
Proof.
  induction gaps as [|g gs IH]; intros n; [cbn; rewrite repeat_length; reflexivity|]. cbn [stall]. rewrite app_length, repeat_length, repeat_app. f_equal.
  destruct n as [|n]; [reflexivity|]. cbn [repeat length]. f_equal. apply IH.
Qed.
Lemma border_idle : forall n a, map (border_bit Unipolar) (seq a n) = repeat 0 n.
Proof. induction n as [|n IH]; intros a; [reflexivity|]. cbn [seq map repeat]. rewrite IH. reflexivity. Qed.
Theorem conv_stall : forall c depth p N H W ho wo h h' gaps, patient (cv_pc c, depth) -> conv_geom c p H W ho wo -> (1 <= N)%nat ->
  Forall (tensor_ok bit N (cv_chan c) H W) h -> Forall (tensor_ok bit N (cv_chan c) H W) h' ->
  (forall n, (n < N)%nat -> length h' = length (stall tt (gaps n) (map (fun _ => tt) h))) ->
  (forall n ch y x, (n < N)%nat -> (ch < cv_chan c)%nat -> (y < H)%nat -> (x < W)%nat -> lane4 h' n ch y x = stall 0 (gaps n) (lane4 h n ch y x)) ->
  exists os os',
    outputs (run_r (fconv_step c (flin_acc_cfg (cv_pc c) None depth)) (fconv_init c) (no_args4 h)) = Some os /\
    outputs (run_r (fconv_step c (flin_acc_cfg (cv_pc c) None depth)) (fconv_init c) (no_args4 h')) = Some os' /\
    length os = length h /\ length os' = length h' /\
    forall n o y x, (n < N)%nat -> (o < pc_out (cv_pc c))%nat -> (y < ho)%nat -> (x < wo)%nat -> lane4 os' n o y x = stall 0 (gaps n) (lane4 os n o y x).
Proof.
  intros c depth p N H W ho wo h1 h2 gaps Sd G HN Hh1 Hh2 HL Hk.
  destruct (conv_layer c None depth p N H W ho wo h1 G HN Hh1) as (ys1 & os1 & R1 & E1 & L1 & M1 & Hl1).
  destruct (conv_layer c None depth p N H W ho wo h2 G HN Hh2) as (ys2 & os2 & R2 & E2 & L2 & M2 & Hl2).
  exists os1, os2. split; [exact E1|]. split; [exact E2|]. split; [exact M1|]. split; [exact M2|].
  assert (Gs := G). destruct Gs as (Sh & Ei & _ & _ & _ & K1 & K2 & _ & _ & O1 & O2 & _).
  assert (Ri : forall n y x, (y < ho)%nat -> (x < wo)%nat -> (row_index ho wo n y x / (ho * wo))%nat = n).
  { intros n y x Hy Hx. unfold row_index. symmetry. apply (Nat.div_unique _ _ _ (y * wo + x)); nia. }
  destruct (linear_stall (cv_pc c, depth) (N * (ho * wo)) (fun b => gaps (b / (ho * wo))%nat) (conv_rows c p ho wo h1) (conv_rows c p ho wo h2) Sd (rows_pos N ho wo HN O1 O2)
    (conv_rows_batches c p N H W ho wo _ G Hh1) (conv_rows_batches c p N H W ho wo _ G Hh2)) as (z1 & z2 & A1 & A2 & _ & _ & _ & _ & Hz).
  - intros b Hb. destruct (split_row ho wo b N O1 O2 Hb) as (n & y & x & Hn & Hy & Hx & ->). rewrite Ri by assumption. rewrite conv_rows_length, (HL n Hn).
    apply stall_length. rewrite !map_length, conv_rows_length. reflexivity.
  - intros b i Hb Hi. cbn [fst] in Hi. destruct (split_row ho wo b N O1 O2 Hb) as (n & y & x & Hn & Hy & Hx & ->). rewrite Ri by assumption.
    destruct (rows_lane c p N H W ho wo h1 n y x G Hh1 Hn Hy Hx i Hi) as (ch & a & b' & Hc & Ha & Hb' & -> & ->).
    rewrite (lane_tap c p N H W ho wo) by assumption.
    destruct (inside H W (tap_y c p y a) (tap_x c p x b')) eqn:In.
    + destruct (tap_inside c p N H W h1 n y x ch a b' Hh1 Hn Hc In) as (By & Bx & ->).
      destruct (tap_inside c p N H W h2 n y x ch a b' Hh2 Hn Hc In) as (_ & _ & ->). apply Hk; assumption.
    + rewrite !tap_outside by exact In. destruct Sd as (_ & Hm & _). cbn [fst] in Hm. rewrite Hm, !border_idle, stall_repeat. f_equal. rewrite (HL n Hn). apply stall_length. rewrite map_length, repeat_length. reflexivity.
  - cbn [fst snd] in A1, A2, Hz. unfold cfg_of in *. rewrite R1 in A1. injection A1 as <-. rewrite R2 in A2. injection A2 as <-.
    intros n o y x Hn Ho Hy Hx. rewrite Hl1, Hl2 by assumption.
    rewrite (Hz (row_index ho wo n y x) o (fold_index n y x N ho wo Hn Hy Hx) Ho). rewrite Ri by assumption. reflexivity.
Qed.
