(** Proofs that ReLU, hard sigmoid and the division kernel are monotone. *)
Require Import Verif.BaseLemmas Verif.MonoSpec Verif.KernelModel Verif.KernelProof Verif.AddModel Verif.AddProof Verif.ShuffleModel Verif.DivModel Verif.DivProof Verif.MonoProof.
Open Scope Z_scope.

(** ** ReLU *)
Definition relu_apart (d : nat) (a1 a2 n l c : Z) : Prop :=
  n <= c /\ (a1 = a2 + 1 -> n <= c - 1) /\ 2 * n = a2 - a1 + l /\ 0 <= n /\ 0 <= l /\ a1 <= a2 + 1 /\ p2 d - 1 <= a1 <= p2 (S d) - 1 /\ p2 d - 1 <= a2 <= p2 (S d) - 1.
Lemma relu_pair d a1 a2 n l c x1 x2 : bit x1 -> bit x2 -> x1 <= x2 -> relu_apart d a1 a2 n l c ->
  exists l', relu_apart d (fst (fsurelu_step d a1 x1)) (fst (fsurelu_step d a2 x2))
    (n + snd (fsurelu_step d a2 x2) - snd (fsurelu_step d a1 x1)) l' (c + x2 - x1).
Proof.
  intros H1 H2 Hx (Hc & Hc' & E & Hn & Hl & Ha & R1 & R2). unfold fsurelu_step. cbn [fst snd].
  assert (P : p2 (S d) = 2 * p2 d) by (unfold p2; rewrite Nat2Z.inj_succ, Z.pow_succ_r by lia; reflexivity).
  assert (P0 : 1 <= p2 d) by (unfold p2; pose proof (Z.pow_pos_nonneg 2 (Z.of_nat d)); lia).
  set (o1 := Z.lor x1 (1 - b2z (a1 >=? p2 d))). set (o2 := Z.lor x2 (1 - b2z (a2 >=? p2 d))).
  assert (O1 : a1 < p2 d /\ o1 = 1 \/ p2 d <= a1 /\ o1 = x1).
  { unfold o1. destruct (Z.geb_spec a1 (p2 d)); cbn [b2z]; [right|left]; split; try lia; destruct H1 as [->| ->]; reflexivity. }
  assert (O2 : a2 < p2 d /\ o2 = 1 \/ p2 d <= a2 /\ o2 = x2).
  { unfold o2. destruct (Z.geb_spec a2 (p2 d)); cbn [b2z]; [right|left]; split; try lia; destruct H2 as [->| ->]; reflexivity. }
  clearbody o1 o2. unfold relu_apart. rewrite P in *. clear P. generalize dependent (p2 d). intros h. intros.
  exists (2 * (n + o2 - o1) - (zclamp 0 (2 * h - 1) (a2 + (o2 * 2 - 1)) - zclamp 0 (2 * h - 1) (a1 + (o1 * 2 - 1)))).
  unfold zclamp, bit in *. destruct O1 as [[? ->]|[? ->]], O2 as [[? ->]|[? ->]]; try lia.
Qed.

Lemma relu_range d a x : bit x -> bit (snd (fsurelu_step d a x)).
Proof. intros [->| ->]; unfold fsurelu_step, bit; cbn [snd]; destruct (a >=? p2 d); cbn; lia. Qed.
Lemma ones_bit x l : bit x -> ones (x :: l) = x + ones l.
Proof. intros [->| ->]; rewrite ones_cons; reflexivity. Qed.
Lemma relu_runs d : forall xs ys, bits xs -> bits ys -> bits_le xs ys -> forall a1 a2 n l c, relu_apart d a1 a2 n l c ->
  exists a1' a2' l', relu_apart d a1' a2' (n + ones (outs (fsurelu_step d) a2 ys) - ones (outs (fsurelu_step d) a1 xs)) l' (c + ones ys - ones xs).
Proof.
  induction xs as [|x xs IH]; intros ys Hx Hy H a1 a2 n l c A; (destruct ys as [|y ys]; [try (now inversion H)|try (now inversion H)]).
  - exists a1, a2, l. cbn. replace (n + 0 - 0) with n by lia. replace (c + 0 - 0) with c by lia. exact A.
  - inversion H as [|? ? ? ? H1 H2]; subst. inversion Hx as [|? ? X1 X2]; subst. inversion Hy as [|? ? Y1 Y2]; subst.
    destruct (relu_pair d a1 a2 n l c x y X1 Y1 H1 A) as (l' & A').
    destruct (IH ys X2 Y2 H2 _ _ _ _ _ A') as (b1 & b2 & l'' & B). exists b1, b2, l''.
    rewrite !outs_cons. rewrite !ones_bit by (try apply relu_range; assumption).
    match goal with |- relu_apart _ _ _ ?n1 _ ?c1 => match type of B with relu_apart _ _ _ ?n2 _ ?c2 => replace n1 with n2 by lia; replace c1 with c2 by lia end end.
    exact B.
Qed.
Lemma bits_le_firstn t : forall xs ys, bits_le xs ys -> bits_le (firstn t xs) (firstn t ys).
Proof.
  induction t as [|t IH]; intros xs ys H; [constructor|]. destruct H as [|x y l1 l2 H1 H2]; [constructor|]. cbn [firstn]. constructor; [exact H1|apply IH, H2].
Qed.

Theorem relu_mono : forall d xs ys, bits xs -> bits ys -> bits_le xs ys ->
  behind_by (fun t => ones (firstn t ys) - ones (firstn t xs))
    (outs (fsurelu_step d) (fsurelu_init d) xs) (outs (fsurelu_step d) (fsurelu_init d) ys).
Proof.
  intros d xs ys Hx Hy H t Ht. rewrite <- !BaseLemmas.outs_firstn.
  assert (P : p2 (S d) = 2 * p2 d) by (unfold p2; rewrite Nat2Z.inj_succ, Z.pow_succ_r by lia; reflexivity).
  assert (P0 : 1 <= p2 d) by (unfold p2; pose proof (Z.pow_pos_nonneg 2 (Z.of_nat d)); lia).
  assert (A : relu_apart d (fsurelu_init d) (fsurelu_init d) 0 0 0) by (unfold relu_apart, fsurelu_init; lia).
  destruct (relu_runs d (firstn t xs) (firstn t ys) (BaseLemmas.Forall_firstn _ _ _ Hx) (BaseLemmas.Forall_firstn _ _ _ Hy) (bits_le_firstn t _ _ H) _ _ _ _ _ A)
    as (a1 & a2 & l & B). unfold relu_apart in B. lia.
Qed.

(** ** Hard sigmoid *)
Theorem sigmoid_mono : forall m d xs ys, 4 <= d -> bits xs -> bits ys -> length xs = length ys -> behind xs ys ->
  behind_by (fun t => (ones (firstn t ys) - ones (firstn t xs) + 1) / 2)
    (outs (fsuhardsigmoid_step m d) (fsuhardsigmoid_init m d) xs) (outs (fsuhardsigmoid_step m d) (fsuhardsigmoid_init m d) ys).
Proof.
  intros m d xs ys Hd Hx Hy EL H t Ht. rewrite <- !BaseLemmas.outs_firstn. specialize (H t).
  rewrite !hardsigmoid_exact by (try exact Hd; apply BaseLemmas.Forall_firstn; assumption).
  assert (E : zlen (firstn t ys) = zlen (firstn t xs)) by (unfold zlen; rewrite !firstn_length, EL; reflexivity). rewrite E.
  generalize dependent (ones (firstn t xs)). generalize dependent (ones (firstn t ys)). generalize (zlen (firstn t xs)). intros. lia.
Qed.

(** ** The division kernel *)
Lemma Forall2_skipn {A B} (R : A -> B -> Prop) t : forall xs ys, Forall2 R xs ys -> Forall2 R (skipn t xs) (skipn t ys).
Proof. induction t as [|t IH]; intros xs ys H; [exact H|]. destruct H; [constructor|]. cbn [skipn]. apply IH. assumption. Qed.
Lemma recent_le n xs ys : bits_le xs ys -> bits_le (recent n xs) (recent n ys).
Proof.
  intros H. unfold recent, lastn. assert (L : length xs = length ys) by (clear -H; induction H; cbn [length]; congruence).
  rewrite !app_length, L. apply Forall2_skipn, Forall2_app; [|exact H].
  generalize (alternating n). intros l. induction l; constructor; [lia|assumption].
Qed.
Lemma at_ones_le h1 h2 : dividend_le h1 h2 -> bits_le (at_ones h1) (at_ones h2).
Proof.
  induction 1 as [|[a1 b1] [a2 b2] h1 h2 [H1 H2] _ IH]; [constructor|]. cbn [fst snd] in H1, H2. subst b2. unfold at_ones in *. cbn [filter].
  destruct (snd (a1, b1) =? 1) eqn:E; cbn [snd] in E; cbn [snd]; rewrite ?E; [|exact IH]. cbn [map fst]. constructor; [exact H1|exact IH].
Qed.
Lemma dividend_le_firstn t : forall h1 h2, dividend_le h1 h2 -> dividend_le (firstn t h1) (firstn t h2).
Proof.
  induction t as [|t IH]; intros xs ys H; [constructor|]. destruct H as [|x y l1 l2 H1 H2]; [constructor|]. cbn [firstn]. constructor; [exact H1|apply IH, H2].
Qed.
Lemma Forall2_of_nth : forall (xs ys : list Z), length xs = length ys -> (forall k, (k < length xs)%nat -> nth k xs 0 <= nth k ys 0) -> bits_le xs ys.
Proof.
  induction xs as [|x xs IH]; intros [|y ys] L H; try discriminate; [constructor|]. constructor.
  - apply (H 0%nat). cbn [length]. lia.
  - apply IH; [cbn [length] in L; lia|]. intros k Hk. apply (H (S k)). cbn [length]. lia.
Qed.
Lemma dividend_le_nth h1 h2 : dividend_le h1 h2 -> forall k, fst (nth k h1 (0, 0)) <= fst (nth k h2 (0, 0)) /\ snd (nth k h1 (0, 0)) = snd (nth k h2 (0, 0)).
Proof. induction 1 as [|x y l1 l2 H1 _ IH]; intros [|k]; cbn [nth]; try (split; [lia|reflexivity]); [exact H1|apply IH]. Qed.

Theorem kernel_mono : forall w rng h1 h2, index_seq w rng -> dividend_le h1 h2 ->
  exists st1 o1 st2 o2, run_r (cordiv_step (2 ^ w) rng) (cordiv_init (2 ^ w)) h1 = Ok (st1, o1) /\
    run_r (cordiv_step (2 ^ w) rng) (cordiv_init (2 ^ w)) h2 = Ok (st2, o2) /\ length o1 = length h1 /\ bits_le o1 o2.
Proof.
  intros w rng h1 h2 Hr H. destruct (cordiv_kernel_spec w rng h1 Hr) as (st1 & o1 & E1 & L1 & N1).
  destruct (cordiv_kernel_spec w rng h2 Hr) as (st2 & o2 & E2 & L2 & N2). exists st1, o1, st2, o2. split; [exact E1|]. split; [exact E2|]. split; [exact L1|].
  assert (L : length h1 = length h2) by (clear -H; induction H; cbn [length]; congruence).
  apply Forall2_of_nth; [congruence|]. intros k Hk. rewrite L1 in Hk. rewrite N1 by exact Hk. rewrite N2 by (rewrite <- L; exact Hk).
  destruct (dividend_le_nth h1 h2 H k) as [D1 D2]. rewrite <- D2. destruct (snd (nth k h1 (0, 0)) =? 1); [exact D1|].
  apply Forall2_nth_le, recent_le, at_ones_le, dividend_le_firstn, H.
Qed.

(** ** Division *)
Lemma sync_pair d c1 c2 x1 x2 y : bit x1 -> bit x2 -> bit y -> x1 <= x2 -> 0 <= c1 <= c2 -> c2 <= p2 d - 1 ->
  let r1 := skewedsync_step d c1 (x1, y) in let r2 := skewedsync_step d c2 (x2, y) in
  0 <= fst r1 <= fst r2 /\ fst r2 <= p2 d - 1 /\ fst (snd r1) <= fst (snd r2) /\ snd (snd r1) = snd (snd r2).
Proof.
  intros H1 H2 Hy Hx Hc Hm. unfold skewedsync_step. cbn [fst snd]. unfold zclamp. generalize dependent (p2 d). intros u. intros.
  destruct H1 as [->| ->], H2 as [->| ->], Hy as [->| ->]; try lia; cbn [Z.eqb];
    repeat match goal with |- context [b2z (?a =? ?b)] => destruct (Z.eqb_spec a b) end; cbn [negb b2z]; try lia;
    destruct (Z.eqb_spec c1 0), (Z.eqb_spec c2 0), (Z.eqb_spec c1 (u - 1)), (Z.eqb_spec c2 (u - 1)); cbn [negb b2z]; lia.
Qed.
Lemma sync_le d : forall h1 h2, Forall bitpair h1 -> Forall bitpair h2 -> dividend_le h1 h2 -> forall c1 c2, 0 <= c1 <= c2 -> c2 <= p2 d - 1 ->
  dividend_le (outs (skewedsync_step d) c1 h1) (outs (skewedsync_step d) c2 h2).
Proof.
  induction h1 as [|[x1 y1] h1 IH]; intros h2 B1 B2 H c1 c2 Hc Hm; (destruct h2 as [|[x2 y2] h2]; [try (now inversion H); try apply Forall2_nil|try (now inversion H)]).
  inversion H as [|? ? ? ? [D1 D2] D3]; subst. inversion B1 as [|? ? [P1 P2] P3]; subst. inversion B2 as [|? ? [Q1 Q2] Q3]; subst. cbn [fst snd] in *. subst y2.
  destruct (sync_pair d c1 c2 x1 x2 y1 P1 Q1 P2 D1 Hc Hm) as (S1 & S2 & S3 & S4). rewrite !outs_cons. constructor; [split; assumption|].
  apply IH; assumption.
Qed.

Theorem division_mono : forall c w h1 h2, fd_mode c = Unipolar -> fd_entry c = (2 ^ w)%nat -> index_seq w (fd_rng c) ->
  Forall bitpair h1 -> Forall bitpair h2 -> dividend_le h1 h2 ->
  exists st1 o1 st2 o2, run_r (fsudiv_step c) (fsudiv_init c) h1 = Ok (st1, o1) /\
    run_r (fsudiv_step c) (fsudiv_init c) h2 = Ok (st2, o2) /\ length o1 = length h1 /\ bits_le o1 o2.
Proof.
  intros c w h1 h2 Hm He Hr B1 B2 H. destruct (fsudiv_uni_run c w h1 Hm He Hr) as (st1 & E1). destruct (fsudiv_uni_run c w h2 Hm He Hr) as (st2 & E2).
  exists st1, (udiv_out c h1), st2, (udiv_out c h2). split; [exact E1|]. split; [exact E2|]. split; [apply udiv_out_length|].
  pose proof (p2_pos (fd_depth_ss c)) as Pp. unfold skewedsync_init in *.
  assert (Hs : dividend_le (outs (skewedsync_step (fd_depth_ss c)) skewedsync_init h1) (outs (skewedsync_step (fd_depth_ss c)) skewedsync_init h2)).
  { apply sync_le; try assumption; unfold skewedsync_init; lia. }
  assert (L : length h1 = length h2) by (clear -H; induction H; cbn [length]; congruence).
  unfold udiv_out. rewrite He. set (s1 := outs (skewedsync_step (fd_depth_ss c)) skewedsync_init h1) in *. set (s2 := outs (skewedsync_step (fd_depth_ss c)) skewedsync_init h2) in *.
  assert (L1 : length s1 = length h1) by apply outs_length. assert (L2 : length s2 = length h2) by apply outs_length.
  apply Forall2_of_nth; [rewrite !outs_length; congruence|]. intros k Hk. rewrite outs_length in Hk.
  assert (Lr : length (fd_rng c) = (2 ^ w)%nat) by apply Hr.
  rewrite (cordiv_out w _ s1 k Lr Hk), (cordiv_out w _ s2 k Lr) by (rewrite L2, <- L, <- L1; exact Hk).
  destruct (dividend_le_nth s1 s2 Hs k) as [D1 D2]. rewrite <- D2. destruct (snd (nth k s1 (0, 0)) =? 1); [exact D1|].
  apply Forall2_nth_le, recent_le, at_ones_le, dividend_le_firstn, Hs.
Qed.
