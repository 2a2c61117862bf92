(** Convolutions are layers on windows: what follows for two runs. *)
Require Import Verif.BaseLemmas Verif.ShiftSpec Verif.MonoProof Verif.FaultProof Verif.SymProof.
Open Scope Z_scope.

Definition cfg_of (c : conv_cfg) (scale : option Q) (depth : Z) : fsuadd_cfg := flin_acc_cfg (cv_pc c) scale depth.

Lemma conv_layer c scale depth p N H W ho wo h : conv_geom c p H W ho wo -> (1 <= N)%nat -> Forall (tensor_ok bit N (cv_chan c) H W) h ->
  exists ys os,
    outputs (run_r (flin_step (cv_pc c) (cfg_of c scale depth)) (flin_init (cv_pc c)) (no_args (conv_rows c p ho wo h))) = Some ys /\
    outputs (run_r (fconv_step c (cfg_of c scale depth)) (fconv_init c) (no_args4 h)) = Some os /\
    length ys = length h /\ length os = length h /\
    forall n o y x, (n < N)%nat -> (o < pc_out (cv_pc c))%nat -> (y < ho)%nat -> (x < wo)%nat ->
      lane4 os n o y x = lane ys (row_index ho wo n y x) o.
Proof.
  intros G HN Hh. set (a := cfg_of c scale depth).
  destruct (fconv_run c a p N H W ho wo (no_args4 h) G HN) as (s & _ & E); [rewrite fc_inputs_no_args; exact Hh|].
  assert (Gs := G). destruct Gs as (Hs & _ & _ & _ & _ & _ & _ & _ & _ & O1 & O2 & _).
  pose proof (conv_rows_batches c p N H W ho wo _ G Hh) as Hb.
  destruct (flin_run (cv_pc c) a (N * (ho * wo)) (no_args (conv_rows c p ho wo h)) Hs (rows_pos N ho wo HN O1 O2)) as (pc & _ & R);
    [rewrite <- fc_rows_no_args, fl_inputs_rows, fc_inputs_no_args; exact Hb|].
  eexists. eexists. split; [rewrite R; reflexivity|]. split; [rewrite E; reflexivity|].
  rewrite fc_rows_no_args.
  assert (L1 : length (no_args (conv_rows c p ho wo h)) = length h) by (unfold no_args; rewrite map_length; apply conv_rows_length).
  assert (L2 : length (no_args4 h) = length h) by (unfold no_args4; apply map_length).
  rewrite L1, L2. split; [apply tab_length|]. split; [apply tab_length|].
  intros n o y x Hn Ho Hy Hx. unfold lane4, lane. rewrite !map_tab. apply tab_ext. intros t Ht.
  rewrite tab4_entry, tab2_entry by (try assumption; apply fold_index; assumption). reflexivity.
Qed.

(** Every row and every column of the table of windows is a position and a tap. *)
Lemma split_row ho wo r N : (1 <= ho)%nat -> (1 <= wo)%nat -> (r < N * (ho * wo))%nat ->
  exists n y x, (n < N)%nat /\ (y < ho)%nat /\ (x < wo)%nat /\ r = row_index ho wo n y x.
Proof.
  intros O1 O2 Hr. exists (r / (ho * wo))%nat, (r mod (ho * wo) / wo)%nat, (r mod (ho * wo) mod wo)%nat. unfold row_index.
  assert (P : (1 <= ho * wo)%nat) by nia. split; [apply Nat.div_lt_upper_bound; lia|].
  split; [apply Nat.div_lt_upper_bound; [lia|]; pose proof (Nat.mod_upper_bound r (ho * wo) ltac:(lia)); lia|].
  split; [apply Nat.mod_upper_bound; lia|].
  rewrite (Nat.mul_comm (r mod (ho * wo) / wo) wo), <- (Nat.div_mod_eq (r mod (ho * wo)) wo), (Nat.mul_comm (r / (ho * wo))). apply Nat.div_mod_eq.
Qed.
Lemma split_tap C kh kw i : (1 <= kh)%nat -> (1 <= kw)%nat -> (i < C * (kh * kw))%nat ->
  exists k a b, (k < C)%nat /\ (a < kh)%nat /\ (b < kw)%nat /\ i = tap_index kh kw k a b.
Proof. apply split_row. Qed.

Lemma rows_lane c p N H W ho wo h n y x : conv_geom c p H W ho wo -> Forall (tensor_ok bit N (cv_chan c) H W) h ->
  (n < N)%nat -> (y < ho)%nat -> (x < wo)%nat -> forall i, (i < pc_in (cv_pc c))%nat ->
  exists k a b, (k < cv_chan c)%nat /\ (a < fst (cv_kernel c))%nat /\ (b < snd (cv_kernel c))%nat /\
    i = tap_index (fst (cv_kernel c)) (snd (cv_kernel c)) k a b /\
    lane (conv_rows c p ho wo h) (row_index ho wo n y x) i = tap_stream c p H W h n y x k a b.
Proof.
  intros G Hh Hn Hy Hx i Hi. assert (Gs := G). destruct Gs as (_ & Ei & _ & _ & _ & K1 & K2 & _). rewrite Ei in Hi.
  destruct (split_tap _ _ _ _ K1 K2 Hi) as (k & a & b & Hk & Ha & Hb & ->). exists k, a, b. split; [exact Hk|]. split; [exact Ha|]. split; [exact Hb|].
  split; [reflexivity|]. apply (lane_tap c p N H W ho wo); assumption.
Qed.

Theorem conv_window : forall c1 c2 scale depth p q N1 N2 H1 H2 W1 W2 ho1 ho2 wo1 wo2 h1 h2,
  cv_pc c1 = cv_pc c2 -> cv_chan c1 = cv_chan c2 -> cv_kernel c1 = cv_kernel c2 ->
  conv_geom c1 p H1 W1 ho1 wo1 -> conv_geom c2 q H2 W2 ho2 wo2 -> (1 <= N1)%nat -> (1 <= N2)%nat ->
  Forall (tensor_ok bit N1 (cv_chan c1) H1 W1) h1 -> Forall (tensor_ok bit N2 (cv_chan c2) H2 W2) h2 -> length h1 = length h2 ->
  exists os1 os2,
    outputs (run_r (fconv_step c1 (flin_acc_cfg (cv_pc c1) scale depth)) (fconv_init c1) (no_args4 h1)) = Some os1 /\
    outputs (run_r (fconv_step c2 (flin_acc_cfg (cv_pc c2) scale depth)) (fconv_init c2) (no_args4 h2)) = Some os2 /\
    length os1 = length h1 /\ length os2 = length h2 /\
    forall n1 y1 x1 n2 y2 x2, (n1 < N1)%nat -> (y1 < ho1)%nat -> (x1 < wo1)%nat -> (n2 < N2)%nat -> (y2 < ho2)%nat -> (x2 < wo2)%nat ->
      (forall k i j, (k < cv_chan c1)%nat -> (i < fst (cv_kernel c1))%nat -> (j < snd (cv_kernel c1))%nat ->
         tap_stream c1 p H1 W1 h1 n1 y1 x1 k i j = tap_stream c2 q H2 W2 h2 n2 y2 x2 k i j) ->
      forall o, (o < pc_out (cv_pc c1))%nat -> lane4 os1 n1 o y1 x1 = lane4 os2 n2 o y2 x2.
Proof.
  intros c1 c2 scale depth p q N1 N2 H1 H2 W1 W2 ho1 ho2 wo1 wo2 h1 h2 Ep Ec Ek G1 G2 HN1 HN2 Hh1 Hh2 EL.
  destruct (conv_layer c1 scale depth p N1 H1 W1 ho1 wo1 h1 G1 HN1 Hh1) as (ys1 & os1 & R1 & E1 & L1 & M1 & Hl1).
  destruct (conv_layer c2 scale depth q N2 H2 W2 ho2 wo2 h2 G2 HN2 Hh2) as (ys2 & os2 & R2 & E2 & L2 & M2 & Hl2).
  exists os1, os2. split; [exact E1|]. split; [exact E2|]. split; [exact M1|]. split; [exact M2|].
  intros n1 y1 x1 n2 y2 x2 Hn1 Hy1 Hx1 Hn2 Hy2 Hx2 Ht o Ho. rewrite Hl1, Hl2 by (try assumption; rewrite <- Ep; assumption).
  assert (B1 := conv_rows_batches c1 p N1 H1 W1 ho1 wo1 _ G1 Hh1). assert (B2 := conv_rows_batches c2 q N2 H2 W2 ho2 wo2 _ G2 Hh2).
  assert (Gs := G1). destruct Gs as (Sh1 & _ & _ & _ & _ & _ & _ & _ & _ & O1 & O2 & _).
  assert (Gs := G2). destruct Gs as (Sh2 & _ & _ & _ & _ & _ & _ & _ & _ & O3 & O4 & _).
  pose proof (rows_pos N1 ho1 wo1 HN1 O1 O2) as P1. pose proof (rows_pos N2 ho2 wo2 HN2 O3 O4) as P2.
  pose proof (fold_index n1 y1 x1 N1 ho1 wo1 Hn1 Hy1 Hx1) as I1. fold (row_index ho1 wo1 n1 y1 x1) in I1.
  pose proof (fold_index n2 y2 x2 N2 ho2 wo2 Hn2 Hy2 Hx2) as I2. fold (row_index ho2 wo2 n2 y2 x2) in I2.
  set (r1 := row_index ho1 wo1 n1 y1 x1) in *. set (r2 := row_index ho2 wo2 n2 y2 x2) in *.
  assert (FO : Forall (fun o => (o < pc_out (cv_pc c1))%nat) (seq 0 (pc_out (cv_pc c1)))) by (apply Forall_forall; intros i Hi; apply in_seq in Hi; lia).
  destruct (layer_arranged (cv_pc c1) scale depth (N1 * (ho1 * wo1)) (conv_rows c1 p ho1 wo1 h1) [r1] (seq 0 (pc_in (cv_pc c1))) (seq 0 (pc_out (cv_pc c1)))
    Sh1 P1 B1 (Permutation_refl _) FO ltac:(discriminate) ltac:(constructor; [exact I1|constructor])) as (z1 & A1 & _ & _ & T1).
  destruct (layer_arranged (cv_pc c2) scale depth (N2 * (ho2 * wo2)) (conv_rows c2 q ho2 wo2 h2) [r2] (seq 0 (pc_in (cv_pc c2))) (seq 0 (pc_out (cv_pc c2)))
    Sh2 P2 B2 (Permutation_refl _) ltac:(rewrite <- Ep; exact FO) ltac:(discriminate) ltac:(constructor; [exact I2|constructor])) as (z2 & A2 & _ & _ & T2).
  unfold cfg_of in *. rewrite R1 in A1. injection A1 as <-. rewrite R2 in A2. injection A2 as <-. cbv zeta in T1, T2.
  assert (EW : map (rearrange [r1] (seq 0 (pc_in (cv_pc c1)))) (conv_rows c1 p ho1 wo1 h1) =
               map (rearrange [r2] (seq 0 (pc_in (cv_pc c2)))) (conv_rows c2 q ho2 wo2 h2)).
  { assert (S1 : forall n N r (Hr : (r < N)%nat) h, Forall (batch_ok N n) h -> Forall (batch_ok 1 n) (map (rearrange [r] (seq 0 n)) h)).
    { intros n N r Hr h Hh. apply Forall_forall. intros z Hz. apply in_map_iff in Hz. destruct Hz as (z0 & <- & Hz0). rewrite Forall_forall in Hh.
      pose proof (rearrange_ok N n [r] (seq 0 n) z0 (Hh _ Hz0)) as RR. rewrite seq_length in RR. apply RR; [constructor; [exact Hr|constructor]|].
      apply Forall_forall. intros i Hi. apply in_seq in Hi. lia. }
    apply (lanes_eq 1 (pc_in (cv_pc c1))); [exact (S1 _ _ r1 I1 _ B1)|rewrite Ep; exact (S1 _ _ r2 I2 _ B2)|rewrite !map_length, !conv_rows_length; exact EL|].
    intros b i Hb Hi. replace b with 0%nat by lia. rewrite !lane_rearrange by (try rewrite seq_length; try rewrite <- Ep; cbn; lia). cbn [nth].
    rewrite !seq_nth by (try rewrite <- Ep; exact Hi). rewrite Nat.add_0_l.
    destruct (rows_lane c1 p N1 H1 W1 ho1 wo1 h1 n1 y1 x1 G1 Hh1 Hn1 Hy1 Hx1 i Hi) as (k & a & b' & Hk & Ha & Hb' & Ei & El).
    fold r1 in El. rewrite El, Ei, Ek. unfold r2. rewrite (lane_tap c2 q N2 H2 W2 ho2 wo2); try assumption; try (rewrite <- ?Ec, <- ?Ek; assumption). apply Ht; assumption. }
  rewrite EW, Ep in T1. rewrite T2 in T1. injection T1 as T1.
  apply (f_equal (fun z => lane z 0 o)) in T1. rewrite !lane_rearrange in T1 by (try rewrite seq_length; try rewrite <- Ep; cbn; lia).
  cbn [nth] in T1. rewrite !seq_nth in T1 by (try rewrite <- Ep; assumption). rewrite Nat.add_0_l in T1. symmetry. exact T1.
Qed.

Lemma lane4_nth h n c y x : lane4 h n c y x = map (fun t => entry4 0 (nth t h []) n c y x) (seq 0 (length h)).
Proof.
  unfold lane4. induction h as [|a h IH]; [reflexivity|]. cbn [length seq map nth]. rewrite IH, <- seq_shift, map_map. reflexivity.
Qed.
(** What a tap sees: a pixel or the border. *)
Lemma tap_inside c p N H W h n y x k i j : Forall (tensor_ok bit N (cv_chan c) H W) h -> (n < N)%nat -> (k < cv_chan c)%nat ->
  inside H W (tap_y c p y i) (tap_x c p x j) = true ->
  (Z.to_nat (tap_y c p y i) < H)%nat /\ (Z.to_nat (tap_x c p x j) < W)%nat /\
  tap_stream c p H W h n y x k i j = lane4 h n k (Z.to_nat (tap_y c p y i)) (Z.to_nat (tap_x c p x j)).
Proof.
  intros Hh Hn Hk Hi. assert (B : (Z.to_nat (tap_y c p y i) < H)%nat /\ (Z.to_nat (tap_x c p x j) < W)%nat) by (unfold inside in Hi; lia).
  split; [apply B|]. split; [apply B|]. rewrite lane4_nth. unfold tap_stream. apply map_ext_in. intros t Ht. apply in_seq in Ht.
  unfold surrounded. unfold inside in Hi. unfold tap_y, tap_x in *. rewrite Hi. unfold entry4. apply nth_indep.
  pose proof (Forall_nth_lt _ h t [] Hh ltac:(lia)) as T. pose proof (tensor_chan bit N (cv_chan c) H W _ n k T Hn Hk) as (L1 & L2).
  rewrite (Forall_nth_lt _ _ _ [] L2) by (rewrite L1; apply B). apply B.
Qed.
Lemma tap_outside c p H W h n y x k i j : inside H W (tap_y c p y i) (tap_x c p x j) = false ->
  tap_stream c p H W h n y x k i j = map (border_bit (pc_mode (cv_pc c))) (seq 0 (length h)).
Proof.
  intros Hi. unfold tap_stream. apply map_ext. intros t. unfold surrounded. unfold inside, tap_y, tap_x in Hi. rewrite Hi. reflexivity.
Qed.

Theorem conv_crop : forall c scale depth p N H1 H2 W1 W2 ho1 ho2 wo1 wo2 dy dx h1 h2,
  conv_geom c p H1 W1 ho1 wo1 -> conv_geom c p H2 W2 ho2 wo2 -> (1 <= N)%nat ->
  Forall (tensor_ok bit N (cv_chan c) H1 W1) h1 -> Forall (tensor_ok bit N (cv_chan c) H2 W2) h2 ->
  (dy * fst (cv_stride c) + H1 <= H2)%nat -> (dx * snd (cv_stride c) + W1 <= W2)%nat ->
  cropped N (cv_chan c) H1 W1 (dy * fst (cv_stride c)) (dx * snd (cv_stride c)) h1 h2 ->
  exists os1 os2,
    outputs (run_r (fconv_step c (flin_acc_cfg (cv_pc c) scale depth)) (fconv_init c) (no_args4 h1)) = Some os1 /\
    outputs (run_r (fconv_step c (flin_acc_cfg (cv_pc c) scale depth)) (fconv_init c) (no_args4 h2)) = Some os2 /\
    length os1 = length h1 /\ length os2 = length h2 /\
    forall n o y x, (n < N)%nat -> (o < pc_out (cv_pc c))%nat -> (y < ho1)%nat -> (x < wo1)%nat -> (dy + y < ho2)%nat -> (dx + x < wo2)%nat ->
      window_inside c p H1 W1 y x -> lane4 os1 n o y x = lane4 os2 n o (dy + y) (dx + x).
Proof.
  intros c scale depth p N H1 H2 W1 W2 ho1 ho2 wo1 wo2 dy dx h1 h2 G1 G2 HN Hh1 Hh2 Fy Fx (EL & Cr).
  destruct (conv_window c c scale depth p p N N H1 H2 W1 W2 ho1 ho2 wo1 wo2 h1 h2 eq_refl eq_refl eq_refl G1 G2 HN HN Hh1 Hh2 EL)
    as (os1 & os2 & E1 & E2 & L1 & L2 & Hw).
  exists os1, os2. split; [exact E1|]. split; [exact E2|]. split; [exact L1|]. split; [exact L2|].
  intros n o y x Hn Ho Hy Hx Hy2 Hx2 In. apply Hw; try assumption. intros k i j Hk Hi Hj.
  specialize (In i j Hi Hj). destruct (tap_inside c p N H1 W1 h1 n y x k i j Hh1 Hn Hk In) as (By & Bx & ->).
  assert (Sy : tap_y c p (dy + y) i = Z.of_nat (dy * fst (cv_stride c)) + tap_y c p y i) by (unfold tap_y; lia).
  assert (Sx : tap_x c p (dx + x) j = Z.of_nat (dx * snd (cv_stride c)) + tap_x c p x j) by (unfold tap_x; lia).
  destruct (tap_inside c p N H2 W2 h2 n (dy + y) (dx + x) k i j Hh2 Hn Hk) as (_ & _ & ->); [rewrite Sy, Sx; unfold inside in *; lia|].
  unfold inside in In. replace (Z.to_nat (tap_y c p (dy + y) i)) with (dy * fst (cv_stride c) + Z.to_nat (tap_y c p y i))%nat by lia.
  replace (Z.to_nat (tap_x c p (dx + x) j)) with (dx * snd (cv_stride c) + Z.to_nat (tap_x c p x j))%nat by lia.
  rewrite !lane4_nth, EL. apply map_ext_in. intros t Ht. apply in_seq in Ht.
  apply Cr; try assumption; lia.
Qed.

Lemma axis_one n k s d o : (1 <= s)%nat -> (1 <= k)%nat -> (1 <= o)%nat ->
  positions (Z.of_nat n) (Z.of_nat k) (Z.of_nat s) (Z.of_nat d) = Z.of_nat o ->
  exists o1, (1 <= o1)%nat /\ positions (Z.of_nat n) (Z.of_nat k) (Z.of_nat 1) (Z.of_nat d) = Z.of_nat o1 /\ forall y, (y < o)%nat -> (y * s < o1)%nat.
Proof.
  intros Hs Hk Ho E. rewrite positions_unfold in E by assumption. exists (Z.to_nat (unfold_axis n k 1 d)). rewrite positions_unfold by lia.
  assert (M : forall y, (y < o)%nat -> Z.of_nat (y * s) < unfold_axis n k 1 d).
  { intros y Hy. assert (Hy' : Z.of_nat y < unfold_axis n k s d) by lia.
    pose proof (unfold_axis_in n k s d y (k - 1) Hs Hk Hy' ltac:(lia)). unfold unfold_axis. change (Z.of_nat 1) with 1. rewrite Z.div_1_r. nia. }
  pose proof (M 0%nat ltac:(lia)). split; [lia|]. split; [lia|]. intros y Hy. specialize (M y Hy). lia.
Qed.

Theorem conv_stride : forall c scale depth p N H W ho wo h, conv_geom c p H W ho wo -> (1 <= N)%nat -> Forall (tensor_ok bit N (cv_chan c) H W) h ->
  exists ho1 wo1 os os1, conv_geom (with_stride (1%nat, 1%nat) c) p H W ho1 wo1 /\
    outputs (run_r (fconv_step c (flin_acc_cfg (cv_pc c) scale depth)) (fconv_init c) (no_args4 h)) = Some os /\
    outputs (run_r (fconv_step (with_stride (1%nat, 1%nat) c) (flin_acc_cfg (cv_pc c) scale depth)) (fconv_init (with_stride (1%nat, 1%nat) c)) (no_args4 h)) = Some os1 /\
    length os = length h /\ length os1 = length h /\
    forall n o y x, (n < N)%nat -> (o < pc_out (cv_pc c))%nat -> (y < ho)%nat -> (x < wo)%nat ->
      (y * fst (cv_stride c) < ho1)%nat /\ (x * snd (cv_stride c) < wo1)%nat /\
      lane4 os n o y x = lane4 os1 n o (y * fst (cv_stride c)) (x * snd (cv_stride c)).
Proof.
  intros c scale depth p N H W ho wo h G HN Hh. assert (Gs := G). destruct Gs as (Sh & Ei & Ep & HC & HH & K1 & K2 & S1 & S2 & O1 & O2 & P1 & P2).
  destruct (axis_one _ _ _ _ _ S1 K1 O1 P1) as (ho1 & Q1 & A1 & M1). destruct (axis_one _ _ _ _ _ S2 K2 O2 P2) as (wo1 & Q2 & A2 & M2).
  assert (G1 : conv_geom (with_stride (1%nat, 1%nat) c) p H W ho1 wo1) by (unfold conv_geom; cbn [with_stride cv_pc cv_chan cv_kernel cv_stride cv_dil cv_pad fst snd]; repeat split; try assumption; try lia; apply Sh).
  destruct (conv_window c (with_stride (1%nat, 1%nat) c) scale depth p p N N H H W W ho ho1 wo wo1 h h eq_refl eq_refl eq_refl G G1 HN HN Hh Hh eq_refl)
    as (os & os1 & E & E1 & L & L1 & Hw).
  exists ho1, wo1, os, os1. split; [exact G1|]. split; [exact E|]. split; [exact E1|]. split; [exact L|]. split; [exact L1|].
  intros n o y x Hn Ho Hy Hx. split; [apply M1, Hy|]. split; [apply M2, Hx|]. apply Hw; try assumption; [apply M1, Hy|apply M2, Hx|].
  intros k i j _ _ _. unfold tap_stream. cbn [with_stride cv_pc cv_chan cv_kernel cv_stride cv_dil cv_pad fst snd]. rewrite !Nat.mul_1_r. reflexivity.
Qed.

(** ** Wrong pixels *)
Lemma decode3 m n a b c : (b < m)%nat -> (c < n)%nat ->
  ((a * (m * n) + (b * n + c)) / (m * n) = a /\ (a * (m * n) + (b * n + c)) mod (m * n) / n = b /\ (a * (m * n) + (b * n + c)) mod (m * n) mod n = c)%nat.
Proof.
  intros Hb Hc. assert (L : (b * n + c < m * n)%nat) by nia.
  assert (E1 : ((a * (m * n) + (b * n + c)) / (m * n) = a)%nat) by (rewrite Nat.div_add_l by lia; rewrite Nat.div_small by exact L; lia).
  assert (E2 : ((a * (m * n) + (b * n + c)) mod (m * n) = b * n + c)%nat) by (rewrite Nat.add_comm, Nat.mod_add by lia; apply Nat.mod_small, L).
  split; [exact E1|]. rewrite E2. split; [rewrite Nat.div_add_l by lia; rewrite Nat.div_small by exact Hc; lia|].
  rewrite Nat.add_comm, Nat.mod_add by lia. apply Nat.mod_small, Hc.
Qed.
(** A number for every position and tap, as a table for the rows of windows. *)
Definition by_index (ho wo kh kw : nat) (f : nat -> nat -> nat -> nat -> nat -> nat -> Z) (b i : nat) : Z :=
  f (b / (ho * wo))%nat (b mod (ho * wo) / wo)%nat (b mod (ho * wo) mod wo)%nat (i / (kh * kw))%nat (i mod (kh * kw) / kw)%nat (i mod (kh * kw) mod kw)%nat.
Lemma by_index_at ho wo kh kw f n y x k i j : (y < ho)%nat -> (x < wo)%nat -> (i < kh)%nat -> (j < kw)%nat ->
  by_index ho wo kh kw f (row_index ho wo n y x) (tap_index kh kw k i j) = f n y x k i j.
Proof.
  intros Hy Hx Hi Hj. unfold by_index, row_index, tap_index.
  destruct (decode3 ho wo n y x Hy Hx) as (-> & -> & ->). destruct (decode3 kh kw k i j Hi Hj) as (-> & -> & ->). reflexivity.
Qed.
Lemma by_index_sum ho wo c f n y x : pc_in (cv_pc c) = (cv_chan c * (fst (cv_kernel c) * snd (cv_kernel c)))%nat -> (y < ho)%nat -> (x < wo)%nat ->
  zsum (map (by_index ho wo (fst (cv_kernel c)) (snd (cv_kernel c)) f (row_index ho wo n y x)) (seq 0 (pc_in (cv_pc c)))) =
  sum_taps (cv_chan c) (fst (cv_kernel c)) (snd (cv_kernel c)) (f n y x).
Proof.
  intros Ei Hy Hx. rewrite Ei. change (map ?g (seq 0 ?m)) with (tab m g). rewrite sum_taps_tab. apply sum_taps_ext. intros k i j Hk Hi Hj. apply by_index_at; assumption.
Qed.

Lemma within_same xs : within 0 xs xs.
Proof. intros t. rewrite Z.sub_diag. cbn. lia. Qed.

Theorem conv_faults : forall c depth p N H W ho wo h1 h2 k, sound (cv_pc c, depth) -> conv_geom c p H W ho wo -> (1 <= N)%nat ->
  Forall (tensor_ok bit N (cv_chan c) H W) h1 -> Forall (tensor_ok bit N (cv_chan c) H W) h2 -> length h1 = length h2 ->
  (forall n ch y x, (n < N)%nat -> (ch < cv_chan c)%nat -> (y < H)%nat -> (x < W)%nat -> within (k n ch y x) (lane4 h1 n ch y x) (lane4 h2 n ch y x)) ->
  exists os1 os2,
    outputs (run_r (fconv_step c (flin_acc_cfg (cv_pc c) None depth)) (fconv_init c) (no_args4 h1)) = Some os1 /\
    outputs (run_r (fconv_step c (flin_acc_cfg (cv_pc c) None depth)) (fconv_init c) (no_args4 h2)) = Some os2 /\
    length os1 = length h1 /\ length os2 = length h2 /\
    forall n o y x, (n < N)%nat -> (o < pc_out (cv_pc c))%nat -> (y < ho)%nat -> (x < wo)%nat ->
      within ((window_sum c p H W (k n) 0 y x + flin_entry (cv_pc c) - 1) / flin_entry (cv_pc c)) (lane4 os1 n o y x) (lane4 os2 n o y x).
Proof.
  intros c depth p N H W ho wo h1 h2 k Sd G HN Hh1 Hh2 EL Hk.
  destruct (conv_layer c None depth p N H W ho wo h1 G HN Hh1) as (ys1 & os1 & R1 & E1 & L1 & M1 & Hl1).
  destruct (conv_layer c None depth p N H W ho wo h2 G HN Hh2) as (ys2 & os2 & R2 & E2 & L2 & M2 & Hl2).
  exists os1, os2. split; [exact E1|]. split; [exact E2|]. split; [exact M1|]. split; [exact M2|].
  assert (Gs := G). destruct Gs as (Sh & Ei & _ & _ & _ & K1 & K2 & _ & _ & O1 & O2 & _).
  set (f := fun n y x ch i j => if inside H W (tap_y c p y i) (tap_x c p x j) then k n ch (Z.to_nat (tap_y c p y i)) (Z.to_nat (tap_x c p x j)) else 0).
  destruct (linear_faults (cv_pc c, depth) (N * (ho * wo)) (conv_rows c p ho wo h1) (conv_rows c p ho wo h2)
    (by_index ho wo (fst (cv_kernel c)) (snd (cv_kernel c)) f) Sd (rows_pos N ho wo HN O1 O2)
    (conv_rows_batches c p N H W ho wo _ G Hh1) (conv_rows_batches c p N H W ho wo _ G Hh2)) as (z1 & z2 & A1 & A2 & _ & _ & _ & _ & Hz).
  - rewrite !conv_rows_length. exact EL.
  - intros b i Hb Hi. cbn [fst] in Hi. destruct (split_row ho wo b N O1 O2 Hb) as (n & y & x & Hn & Hy & Hx & ->).
    destruct (rows_lane c p N H W ho wo h1 n y x G Hh1 Hn Hy Hx i Hi) as (ch & a & b' & Hc & Ha & Hb' & -> & ->).
    rewrite (lane_tap c p N H W ho wo) by assumption. rewrite by_index_at by assumption. unfold f.
    destruct (inside H W (tap_y c p y a) (tap_x c p x b')) eqn:In.
    + destruct (tap_inside c p N H W h1 n y x ch a b' Hh1 Hn Hc In) as (By & Bx & ->).
      destruct (tap_inside c p N H W h2 n y x ch a b' Hh2 Hn Hc In) as (_ & _ & ->). apply Hk; assumption.
    + rewrite !tap_outside by exact In. rewrite EL. apply within_same.
  - cbn [fst snd] in A1, A2, Hz. unfold cfg_of in *. rewrite R1 in A1. injection A1 as <-. rewrite R2 in A2. injection A2 as <-.
    intros n o y x Hn Ho Hy Hx. rewrite Hl1, Hl2 by assumption.
    pose proof (Hz (row_index ho wo n y x) o (fold_index n y x N ho wo Hn Hy Hx) Ho) as Hzz.
    cbv beta in Hzz. rewrite by_index_sum in Hzz by assumption. exact Hzz.
Qed.

Theorem conv_behind : forall c1 c2 d1 d2 p N H W ho wo h1 h2, layers_le (cv_pc c1, d1) (cv_pc c2, d2) ->
  cv_chan c1 = cv_chan c2 -> cv_kernel c1 = cv_kernel c2 -> cv_stride c1 = cv_stride c2 -> cv_dil c1 = cv_dil c2 ->
  conv_geom c1 p H W ho wo -> conv_geom c2 p H W ho wo -> (1 <= N)%nat ->
  Forall (tensor_ok bit N (cv_chan c1) H W) h1 -> Forall (tensor_ok bit N (cv_chan c1) H W) h2 -> length h1 = length h2 ->
  (forall n ch y x, (n < N)%nat -> (ch < cv_chan c1)%nat -> (y < H)%nat -> (x < W)%nat -> behind (lane4 h1 n ch y x) (lane4 h2 n ch y x)) ->
  exists os1 os2,
    outputs (run_r (fconv_step c1 (flin_acc_cfg (cv_pc c1) None d1)) (fconv_init c1) (no_args4 h1)) = Some os1 /\
    outputs (run_r (fconv_step c2 (flin_acc_cfg (cv_pc c2) None d2)) (fconv_init c2) (no_args4 h2)) = Some os2 /\
    length os1 = length h1 /\ length os2 = length h2 /\
    forall n o y x, (n < N)%nat -> (o < pc_out (cv_pc c1))%nat -> (y < ho)%nat -> (x < wo)%nat -> behind (lane4 os1 n o y x) (lane4 os2 n o y x).
Proof.
  intros c1 c2 d1 d2 p N H W ho wo h1 h2 Hle Ec Ek Es Ed G1 G2 HN Hh1 Hh2 EL Hk.
  assert (Hh2' : Forall (tensor_ok bit N (cv_chan c2) H W) h2) by (rewrite <- Ec; exact Hh2).
  destruct (conv_layer c1 None d1 p N H W ho wo h1 G1 HN Hh1) as (ys1 & os1 & R1 & E1 & L1 & M1 & Hl1).
  destruct (conv_layer c2 None d2 p N H W ho wo h2 G2 HN Hh2') as (ys2 & os2 & R2 & E2 & L2 & M2 & Hl2).
  exists os1, os2. split; [exact E1|]. split; [exact E2|]. split; [exact M1|]. split; [exact M2|].
  assert (Gs := G1). destruct Gs as (Sh1 & _ & _ & _ & _ & _ & _ & _ & _ & O1 & O2 & _). assert (Sh2 : pc_shape (cv_pc c2)) by apply G2.
  assert (Hle' := Hle). destruct Hle' as (EI & EO & _ & _ & Mo1 & Mo2 & _). cbn [fst snd] in *.
  pose proof (conv_rows_batches c2 p N H W ho wo _ G2 Hh2') as B2. rewrite <- EI in B2.
  destruct (linear_behind (cv_pc c1, d1) (cv_pc c2, d2) (N * (ho * wo)) (conv_rows c1 p ho wo h1) (conv_rows c2 p ho wo h2) Hle Sh1 Sh2
    (rows_pos N ho wo HN O1 O2) (conv_rows_batches c1 p N H W ho wo _ G1 Hh1) B2) as (z1 & z2 & A1 & A2 & _ & _ & _ & _ & Hz).
  - rewrite !conv_rows_length. exact EL.
  - intros b i Hb Hi. cbn [fst] in Hi. destruct (split_row ho wo b N O1 O2 Hb) as (n & y & x & Hn & Hy & Hx & ->).
    destruct (rows_lane c1 p N H W ho wo h1 n y x G1 Hh1 Hn Hy Hx i Hi) as (ch & a & b' & Hc & Ha & Hb' & -> & ->).
    rewrite Ek in Ha, Hb' |- *. rewrite (lane_tap c2 p N H W ho wo) by (try assumption; rewrite <- Ec; assumption).
    replace (tap_stream c2 p H W h2 n y x ch a b') with (tap_stream c1 p H W h2 n y x ch a b') by (unfold tap_stream; rewrite Mo1, Mo2, Es, Ed; reflexivity).
    destruct (inside H W (tap_y c1 p y a) (tap_x c1 p x b')) eqn:In.
    + destruct (tap_inside c1 p N H W h1 n y x ch a b' Hh1 Hn Hc In) as (By & Bx & ->).
      destruct (tap_inside c1 p N H W h2 n y x ch a b' Hh2 Hn Hc In) as (_ & _ & ->). apply Hk; assumption.
    + rewrite !tap_outside by exact In. rewrite EL. intros t. lia.
  - cbn [fst snd] in A1, A2, Hz. unfold cfg_of in *. rewrite R1 in A1. injection A1 as <-. rewrite R2 in A2. injection A2 as <-.
    intros n o y x Hn Ho Hy Hx. rewrite Hl1, Hl2 by (try assumption; lia).
    exact (Hz (row_index ho wo n y x) o (fold_index n y x N ho wo Hn Hy Hx) Ho).
Qed.

(** ** Negation *)
Lemma negated_images_ok N C H W h : Forall (tensor_ok bit N C H W) h -> Forall (tensor_ok bit N C H W) (negated_images h).
Proof.
  intros Hh. unfold negated_images. rewrite Forall_map. eapply Forall_impl; [|exact Hh]. intros t (L & T). split; [rewrite map_length; exact L|].
  rewrite Forall_map. eapply Forall_impl; [|exact T]. intros img (Li & Ti). split; [rewrite map_length; exact Li|].
  rewrite Forall_map. eapply Forall_impl; [|exact Ti]. intros ch (Lc & Tc). split; [rewrite map_length; exact Lc|].
  rewrite Forall_map. eapply Forall_impl; [|exact Tc]. intros row (Lr & Tr). split; [rewrite negated_length; exact Lr|apply negated_bits, Tr].
Qed.
Lemma negated_pixel N C H W h n c y x : Forall (tensor_ok bit N C H W) h -> (n < N)%nat -> (c < C)%nat -> (y < H)%nat -> (x < W)%nat ->
  lane4 (negated_images h) n c y x = negated (lane4 h n c y x).
Proof.
  intros Hh Hn Hc Hy Hx. unfold lane4, negated_images, negated. rewrite !map_map. apply map_ext_in. intros t Ht. rewrite Forall_forall in Hh. specialize (Hh t Ht).
  unfold entry4. destruct (tensor_chan bit N C H W t n c Hh Hn Hc) as (L1 & L2). destruct Hh as (Ln & T).
  rewrite (map_nth_lt' _ t n [] []) by lia. pose proof (Forall_nth_lt _ t n [] T ltac:(lia)) as (Li & _).
  rewrite (map_nth_lt' _ _ c [] []) by lia. rewrite (map_nth_lt' _ _ y [] []) by (rewrite L1; lia).
  rewrite (map_nth_lt' _ _ x 0 0); [reflexivity|]. rewrite (Forall_nth_lt _ _ y [] L2) by (rewrite L1; lia). exact Hx.
Qed.
Lemma lane4_tensor_bits N C H W h n c y x : Forall (tensor_ok bit N C H W) h -> (n < N)%nat -> (c < C)%nat -> (y < H)%nat -> (x < W)%nat -> bits (lane4 h n c y x).
Proof.
  intros Hh Hn Hc Hy Hx. apply Forall_forall. intros b Hb. apply in_map_iff in Hb. destruct Hb as (t & <- & Ht). rewrite Forall_forall in Hh. specialize (Hh t Ht).
  destruct Hh as (Ln & T). unfold entry4. pose proof (Forall_nth_lt _ t n [] T ltac:(lia)) as (Li & Ti). pose proof (Forall_nth_lt _ _ c [] Ti ltac:(lia)) as (Lc & Tc).
  pose proof (Forall_nth_lt _ _ y [] Tc ltac:(lia)) as (Lr & Tr). apply (Forall_nth_lt _ _ x 0 Tr). lia.
Qed.
Lemma border_near n : within 1 (negated (map (border_bit Bipolar) (seq 0 n))) (map (border_bit Bipolar) (seq 0 n)).
Proof.
  assert (Bb : forall m, bits (map (border_bit Bipolar) (seq 0 m))) by (intros m; apply Forall_forall; intros b Hb; apply in_map_iff in Hb; destruct Hb as (t & <- & _); apply border_bit_bit).
  assert (E : forall m, ones (map (border_bit Bipolar) (seq 0 m)) = Z.of_nat m / 2).
  { induction m as [|m IH]; [reflexivity|]. rewrite seq_S, map_app, ones_app, IH. cbn [map Nat.add]. unfold border_bit.
    rewrite ones_bit by (unfold bit; pose proof (Z.mod_pos_bound (Z.of_nat m) 2 ltac:(lia)); lia). change (ones []) with 0. rewrite Nat2Z.inj_succ.
    pose proof (Z.div_mod (Z.of_nat m) 2 ltac:(lia)). pose proof (Z.mod_pos_bound (Z.of_nat m) 2 ltac:(lia)).
    pose proof (Z.div_mod (Z.succ (Z.of_nat m)) 2 ltac:(lia)). pose proof (Z.mod_pos_bound (Z.succ (Z.of_nat m)) 2 ltac:(lia)). lia. }
  apply within_all; [apply negated_length|]. intros t Ht. rewrite negated_length, map_length, seq_length in Ht.
  rewrite negated_firstn, firstn_map.
  replace (firstn t (seq 0 n)) with (seq 0 t) by (replace n with (t + (n - t))%nat by lia; rewrite seq_app, firstn_app, seq_length, Nat.sub_diag, firstn_O, app_nil_r, firstn_all2; [reflexivity|rewrite seq_length; lia]).
  rewrite ones_negated by apply Bb. unfold zlen. rewrite map_length, seq_length, E.
  pose proof (Z.div_mod (Z.of_nat t) 2 ltac:(lia)). pose proof (Z.mod_pos_bound (Z.of_nat t) 2 ltac:(lia)). lia.
Qed.

Theorem conv_negated : forall c depth p N H W ho wo h, odd_layer (cv_pc c, depth) -> conv_geom c p H W ho wo -> (1 <= N)%nat ->
  Forall (tensor_ok bit N (cv_chan c) H W) h ->
  exists os1 os2,
    outputs (run_r (fconv_step c (flin_acc_cfg (cv_pc c) None depth)) (fconv_init c) (no_args4 h)) = Some os1 /\
    outputs (run_r (fconv_step c (flin_acc_cfg (cv_pc c) None depth)) (fconv_init c) (no_args4 (negated_images h))) = Some os2 /\
    length os1 = length h /\ length os2 = length h /\
    forall n o y x t, (n < N)%nat -> (o < pc_out (cv_pc c))%nat -> (y < ho)%nat -> (x < wo)%nat -> (t <= length h)%nat ->
      Z.abs (Z.of_nat t - ones (firstn t (lane4 os1 n o y x)) - ones (firstn t (lane4 os2 n o y x))) <=
      1 + (window_sum c p H W (fun _ _ _ => 0) 1 y x + flin_entry (cv_pc c) - 1) / flin_entry (cv_pc c).
Proof.
  intros c depth p N H W ho wo h (Sd & Hm & Hb) G HN Hh. cbn [fst] in Hm, Hb.
  pose proof (negated_images_ok _ _ _ _ _ Hh) as Hh2. assert (EL : length (negated_images h) = length h) by apply map_length.
  destruct (conv_layer c None depth p N H W ho wo h G HN Hh) as (ys1 & os1 & R1 & E1 & L1 & M1 & Hl1).
  destruct (conv_layer c None depth p N H W ho wo (negated_images h) G HN Hh2) as (ys2 & os2 & R2 & E2 & L2 & M2 & Hl2). rewrite EL in L2, M2.
  exists os1, os2. split; [exact E1|]. split; [exact E2|]. split; [exact M1|]. split; [exact M2|].
  assert (Gs := G). destruct Gs as (Sh & Ei & _ & _ & _ & K1 & K2 & _ & _ & O1 & O2 & _).
  pose proof (conv_rows_batches c p N H W ho wo _ G Hh) as B1. pose proof (conv_rows_batches c p N H W ho wo _ G Hh2) as B2.
  pose proof (rows_pos N ho wo HN O1 O2) as HB.
  destruct (layer_negated (cv_pc c, depth) (N * (ho * wo)) _ Sd Hm Hb HB B1) as (m1 & m1' & A1 & A1' & N1 & N1' & _ & Sh1' & Hneg).
  set (f := fun (n : nat) y x (ch : nat) i j => if inside H W (tap_y c p y i) (tap_x c p x j) then 0 else 1).
  destruct (linear_faults (cv_pc c, depth) (N * (ho * wo)) (negated_batches (conv_rows c p ho wo h)) (conv_rows c p ho wo (negated_images h))
    (by_index ho wo (fst (cv_kernel c)) (snd (cv_kernel c)) f) Sd HB (negated_ok _ _ _ B1) B2) as (z1 & z2 & C1 & C2 & _ & _ & _ & _ & Hz).
  - rewrite negated_batches_length, !conv_rows_length. symmetry. exact EL.
  - intros b i Hbb Hi. cbn [fst] in Hi. rewrite (negated_lane (N * (ho * wo)) (pc_in (cv_pc c))) by assumption.
    destruct (split_row ho wo b N O1 O2 Hbb) as (n & y & x & Hn & Hy & Hx & ->).
    destruct (rows_lane c p N H W ho wo h n y x G Hh Hn Hy Hx i Hi) as (ch & a & b' & Hc & Ha & Hb' & -> & ->).
    rewrite (lane_tap c p N H W ho wo) by assumption. rewrite by_index_at by assumption. unfold f.
    destruct (inside H W (tap_y c p y a) (tap_x c p x b')) eqn:In.
    + destruct (tap_inside c p N H W h n y x ch a b' Hh Hn Hc In) as (By & Bx & ->).
      destruct (tap_inside c p N H W (negated_images h) n y x ch a b' Hh2 Hn Hc In) as (_ & _ & ->).
      rewrite (negated_pixel N (cv_chan c) H W) by assumption. apply within_same.
    + rewrite !tap_outside by exact In. rewrite EL, Hm. apply border_near.
  - cbn [fst snd] in *. unfold cfg_of in *. rewrite R1 in A1. injection A1 as <-. rewrite A1' in C1. injection C1 as <-. rewrite R2 in C2. injection C2 as <-.
    intros n o y x t Hn Ho Hy Hx Ht. rewrite Hl1, Hl2 by assumption.
    pose proof (fold_index n y x N ho wo Hn Hy Hx) as Hr. fold (row_index ho wo n y x) in Hr.
    pose proof (Hz _ o Hr Ho t) as Hzz. cbv beta in Hzz. rewrite by_index_sum in Hzz by assumption.
    specialize (Hneg _ o t Hr Ho ltac:(rewrite conv_rows_length; exact Ht)).
    change (sum_taps (cv_chan c) (fst (cv_kernel c)) (snd (cv_kernel c)) (f n y x)) with (window_sum c p H W (fun _ _ _ => 0) 1 y x) in Hzz. lia.
Qed.
