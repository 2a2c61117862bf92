(** Proofs for C82. *)
From Coq Require Import String Lqa.
Require Import Verif.BaseLemmas Verif.AddProof Verif.SobolProof Verif.GenModel Verif.GenProof Verif.KernelModel Verif.KernelProof
  Verif.LinearModel Verif.LinearProof Verif.ChainSpec Verif.ChainProof Verif.NameSpec Verif.NameProof Verif.NewSpec Verif.ProgSpec Verif.ProgProof Verif.NetSpec Verif.NetProof Verif.SatSpec.
Open Scope Z_scope.

(** ** A queue that pays one at a time and saturates
    P is what has arrived after t steps, O how often it has paid, acc what it holds. *)
Local Open Scope Q_scope.
Definition queue (n : nat) (L : Q) (P O acc : nat -> Q) : Prop :=
  forall t, (t < n)%nat ->
    (O (S t) == O t + 1 /\ 1 <= acc t + (P (S t) - P t) /\
       (acc (S t) == acc t + (P (S t) - P t) - 1 \/ (L < acc t + (P (S t) - P t) /\ acc (S t) == L - 1))) \/
    (O (S t) == O t /\ acc (S t) < 1 /\
       (acc (S t) == acc t + (P (S t) - P t) \/ (acc t + (P (S t) - P t) < - L /\ acc (S t) == - L))).
Definition clip01 (d : Q) : Q := qclamp 0 1 d.
Lemma clip01_cases d : (d <= 0 /\ clip01 d == 0) \/ (0 <= d <= 1 /\ clip01 d == d) \/ (1 <= d /\ clip01 d == 1).
Proof. unfold clip01, qclamp, qmin, qmax. qcases; lra. Qed.
Definition Qn (n : nat) : Q := inject_Z (Z.of_nat n).
Lemma Qn_S n : Qn (S n) == Qn n + 1.
Proof. unfold Qn. rewrite Nat2Z.inj_succ, <- Z.add_1_r, inject_Z_plus. reflexivity. Qed.
Lemma Qn_le a b : (a <= b)%nat -> Qn a <= Qn b.
Proof. intros H. unfold Qn. rewrite <- Zle_Qle. lia. Qed.

(** F grows by u per step, within q per step plus K. *)
Definition flow (n : nat) (u q K : Q) (F : nat -> Q) : Prop :=
  forall a b, (a <= b <= n)%nat -> Qabs (F b - F a - u * (Qn b - Qn a)) <= q * (Qn b - Qn a) + K.

Section Queue.
Variables (n : nat) (L A d q K : Q) (P O acc : nat -> Q).
Hypothesis Hq : 0 <= q.
Hypothesis HK : 0 <= K.
Hypothesis HA : 0 <= A.
Hypothesis HL : K + 2 <= L.
Hypothesis H0 : - A <= acc 0%nat <= 1 + A.
Hypothesis HP : flow n d q K P.
Hypothesis Hqueue : queue n L P O acc.

Lemma queue_P a b : (a <= b <= n)%nat -> - (q * (Qn b - Qn a) + K) <= P b - P a - d * (Qn b - Qn a) <= q * (Qn b - Qn a) + K.
Proof. intros H. apply Qabs_Qle_condition. apply HP, H. Qed.

Lemma queue_hi : d + q <= 1 -> forall b, (b <= n)%nat ->
  exists a, (a <= b)%nat /\ acc b <= 1 + A + (P b - P a) - (Qn b - Qn a).
Proof.
  intros Hd. induction b as [|b IH]; intros Hb.
  - exists 0%nat. split; [lia|]. lra.
  - destruct (IH ltac:(lia)) as (a & Ha & E). pose proof (Qn_S b) as QS.
    destruct (Hqueue b ltac:(lia)) as [(E1 & E2 & [E3|[E3 E4]])|(E1 & E2 & E3)].
    + exists a. split; [lia|]. lra.
    + exists a. split; [lia|]. lra.
    + exists (S b). split; [lia|]. lra.
Qed.
Lemma queue_top : d + q <= 1 -> forall b, (b <= n)%nat -> acc b <= 1 + A + K.
Proof.
  intros Hd b Hb. destruct (queue_hi Hd b Hb) as (a & Ha & E). pose proof (queue_P a b ltac:(lia)) as [_ G].
  pose proof (Qn_le a b Ha). assert ((d + q) * (Qn b - Qn a) <= 1 * (Qn b - Qn a)) by nra. lra.
Qed.

Lemma queue_upper : d + q <= 1 -> forall b, (b <= n)%nat -> forall a, (a <= b)%nat ->
  (exists a', (a' <= b)%nat /\ O b - O a - (clip01 d + q) * (Qn b - Qn a) <= P b - P a' - (d + q) * (Qn b - Qn a') + (1 + A + K) - acc b) /\
  O b - O a - (clip01 d + q) * (Qn b - Qn a) <= 2 * K + 1 + A.
Proof.
  intros Hd. assert (C : 0 <= clip01 d /\ d <= clip01 d) by (destruct (clip01_cases d) as [[? ->]|[[? ->]|[? ->]]]; lra).
  induction b as [|b IH]; intros Hb a Ha.
  - assert (a = 0%nat) as -> by lia. split; [exists 0%nat; split; [lia|]; lra|lra].
  - pose proof (queue_top Hd (S b) Hb) as T. pose proof (Qn_S b) as QS.
    destruct (Nat.eq_dec a (S b)) as [->|Na].
    + split; [exists (S b); split; [lia|]; lra|lra].
    + destruct (IH ltac:(lia) a ltac:(lia)) as [(a' & Ha' & I2) I3]. clear IH.
      set (c := clip01 d) in *.
      assert (S1 : (c + q) * (Qn (S b) - Qn a) == (c + q) * (Qn b - Qn a) + (c + q)) by (rewrite QS; ring).
      assert (S2 : (d + q) * (Qn (S b) - Qn a') == (d + q) * (Qn b - Qn a') + (d + q)) by (rewrite QS; ring).
      assert (S3 : (d + q) * (Qn (S b) - Qn (S b)) == 0) by ring.
      pose proof (queue_P a' (S b) ltac:(lia)) as [_ G].
      assert (G2 : P (S b) - P a' - (d + q) * (Qn (S b) - Qn a') <= K) by lra.
      clear G. clearbody c.
      destruct (Hqueue b ltac:(lia)) as [(E1 & E2 & E3)|(E1 & E2 & E3)].
      * assert (E4 : acc (S b) <= acc b + (P (S b) - P b) - 1) by (destruct E3 as [E3|[E3 E4]]; lra).
        assert (E5 : 0 <= acc (S b)) by (destruct E3 as [E3|[E3' E3]]; lra). clear E3.
        assert (I2' : O (S b) - O a - (c + q) * (Qn (S b) - Qn a) <= P (S b) - P a' - (d + q) * (Qn (S b) - Qn a') + (1 + A + K) - acc (S b)) by lra.
        split; [exists a'; split; [lia|exact I2']|lra].
      * split; [|lra]. destruct E3 as [E3|[E3 E4]].
        -- exists a'. split; [lia|]. lra.
        -- exists (S b). split; [lia|]. rewrite S3. lra.
Qed.

Lemma queue_lo : forall b, (b <= n)%nat -> exists a, (a <= b)%nat /\ P b - P a - A <= acc b.
Proof.
  induction b as [|b IH]; intros Hb.
  - exists 0%nat. split; [lia|]. lra.
  - destruct (IH ltac:(lia)) as (a & Ha & E).
    destruct (Hqueue b ltac:(lia)) as [(E1 & E2 & E3)|(E1 & E2 & E3)].
    + exists (S b). split; [lia|]. destruct E3 as [E3|[E3' E3]]; lra.
    + exists a. split; [lia|]. destruct E3 as [E3|[E3 E4]]; lra.
Qed.
Lemma queue_bot : 0 <= d - q -> forall b, (b <= n)%nat -> - (K + A) <= acc b.
Proof.
  intros Hd b Hb. destruct (queue_lo b Hb) as (a & Ha & E). pose proof (queue_P a b ltac:(lia)) as [G _].
  pose proof (Qn_le a b Ha). assert (0 <= (d - q) * (Qn b - Qn a)) by nra. lra.
Qed.

Lemma queue_lower : 0 <= d - q -> forall b, (b <= n)%nat -> forall a, (a <= b)%nat ->
  (exists a', (a' <= b)%nat /\ (clip01 d - q) * (Qn b - Qn a) - (O b - O a) <= (d - q) * (Qn b - Qn a') - (P b - P a') + (K + A) + acc b) /\
  (clip01 d - q) * (Qn b - Qn a) - (O b - O a) <= 2 * K + 1 + A.
Proof.
  intros Hd. assert (C : clip01 d <= 1 /\ clip01 d <= d) by (destruct (clip01_cases d) as [[? ->]|[[? ->]|[? ->]]]; lra).
  induction b as [|b IH]; intros Hb a Ha.
  - assert (a = 0%nat) as -> by lia. split; [exists 0%nat; split; [lia|]; lra|lra].
  - pose proof (queue_bot Hd (S b) Hb) as T. pose proof (Qn_S b) as QS.
    destruct (Nat.eq_dec a (S b)) as [->|Na].
    + split; [exists (S b); split; [lia|]; lra|lra].
    + destruct (IH ltac:(lia) a ltac:(lia)) as [(a' & Ha' & I2) I3]. clear IH.
      set (c := clip01 d) in *.
      assert (S1 : (c - q) * (Qn (S b) - Qn a) == (c - q) * (Qn b - Qn a) + (c - q)) by (rewrite QS; ring).
      assert (S2 : (d - q) * (Qn (S b) - Qn a') == (d - q) * (Qn b - Qn a') + (d - q)) by (rewrite QS; ring).
      assert (S3 : (d - q) * (Qn (S b) - Qn (S b)) == 0) by ring.
      pose proof (queue_P a' (S b) ltac:(lia)) as [G _].
      assert (G2 : (d - q) * (Qn (S b) - Qn a') - (P (S b) - P a') <= K) by lra.
      clear G. clearbody c.
      destruct (Hqueue b ltac:(lia)) as [(E1 & E2 & E3)|(E1 & E2 & E3)].
      * split; [|lra]. destruct E3 as [E3|[E3 E4]].
        -- exists a'. split; [lia|]. lra.
        -- exists (S b). split; [lia|]. rewrite S3. lra.
      * assert (E4 : acc b + (P (S b) - P b) <= acc (S b)) by (destruct E3 as [E3|[E3 E4]]; lra). clear E3.
        assert (I2' : (c - q) * (Qn (S b) - Qn a) - (O (S b) - O a) <= (d - q) * (Qn (S b) - Qn a') - (P (S b) - P a') + (K + A) + acc (S b)) by lra.
        split; [exists a'; split; [lia|exact I2']|lra].
Qed.

Lemma queue_rate a b : (a <= b)%nat -> (O a <= O b <= O a + (Qn b - Qn a))%Q \/ (n < b)%nat.
Proof.
  intros Hab. induction Hab as [|b Hab IH]; [left; lra|]. destruct IH as [IH|IH]; [|right; lia].
  destruct (Nat.le_gt_cases (S b) n) as [G|G]; [left|right; lia]. pose proof (Qn_S b).
  destruct (Hqueue b ltac:(lia)) as [(E1 & _)|(E1 & _)]; lra.
Qed.

Theorem queue_clips : flow n (clip01 d) q (2 * K + 1 + A) O.
Proof.
  intros a b Hab. destruct (queue_rate a b ltac:(lia)) as [R|R]; [|lia]. pose proof (Qn_le a b ltac:(lia)) as Q1.
  apply Qabs_Qle_condition. pose proof (clip01_cases d) as C.
  assert (Up : O b - O a - (clip01 d + q) * (Qn b - Qn a) <= 2 * K + 1 + A).
  { destruct (Qlt_le_dec 1 (d + q)) as [D|D]; [|exact (proj2 (queue_upper D b ltac:(lia) a ltac:(lia)))].
    assert (C1 : 1 <= clip01 d + q) by (destruct C as [[? ->]|[[? ->]|[? ->]]]; lra). nra. }
  assert (Lo : (clip01 d - q) * (Qn b - Qn a) - (O b - O a) <= 2 * K + 1 + A).
  { destruct (Qlt_le_dec (d - q) 0) as [D|D]; [|exact (proj2 (queue_lower D b ltac:(lia) a ltac:(lia)))].
    assert (C1 : clip01 d - q <= 0) by (destruct C as [[? ->]|[[? ->]|[? ->]]]; lra). nra. }
  split; lra.
Qed.
End Queue.

(** ** Flows *)
Lemma flow_le n u q q' K K' F : flow n u q K F -> q <= q' -> K <= K' -> flow n u q' K' F.
Proof.
  intros H Hq HK a b Hab. eapply Qle_trans; [exact (H a b Hab)|]. pose proof (Qn_le a b ltac:(lia)). nra.
Qed.
Lemma flow_ext n u u' q q' K K' F F' : u == u' -> q == q' -> K == K' -> (forall t, (t <= n)%nat -> F t == F' t) -> flow n u q K F -> flow n u' q' K' F'.
Proof.
  intros Hu Hq HK HF H a b Hab. rewrite <- (HF a) by lia. rewrite <- (HF b) by lia. rewrite <- Hu, <- Hq, <- HK. exact (H a b Hab).
Qed.
Lemma flow_plus n u v q r K J F G : flow n u q K F -> flow n v r J G -> flow n (u + v) (q + r) (K + J) (fun t => F t + G t).
Proof.
  intros H1 H2 a b Hab. pose proof (H1 a b Hab) as A1. pose proof (H2 a b Hab) as A2. apply qabs_le in A1, A2. apply qabs_le. split; lra.
Qed.
Lemma flow_const n c : flow n 0 0 0 (fun _ => c).
Proof. intros a b Hab. apply qabs_le. split; lra. Qed.
Lemma flow_sum {A} n (l : list A) u q K F : (forall i, In i l -> flow n (u i) (q i) (K i) (F i)) ->
  flow n (qsum (map u l)) (qsum (map q l)) (qsum (map K l)) (fun t => qsum (map (fun i => F i t) l)).
Proof.
  induction l as [|x l IH]; intros H; [exact (flow_const n 0)|]. cbn [map qsum].
  apply (flow_plus n (u x) _ (q x) _ (K x) _ (F x) (fun t => qsum (map (fun i => F i t) l))); [apply H; left; reflexivity|apply IH; intros i Hi; apply H; right; exact Hi].
Qed.
Lemma flow_shift n u q K F off : flow n u q K F -> flow n (u - off) q K (fun t => F t - Qn t * off).
Proof. intros H a b Hab. pose proof (H a b Hab) as A1. apply qabs_le in A1. apply qabs_le. split; lra. Qed.
Lemma flow_div n u q K F s : 0 < s -> flow n u q K F -> flow n (u / s) (q / s) (K / s) (fun t => F t / s).
Proof.
  intros Hs H a b Hab. pose proof (H a b Hab) as A1. apply qabs_le in A1. apply qabs_le.
  assert (E1 : F b / s - F a / s - u / s * (Qn b - Qn a) == (F b - F a - u * (Qn b - Qn a)) / s) by (field; lra).
  assert (E2 : q / s * (Qn b - Qn a) + K / s == (q * (Qn b - Qn a) + K) / s) by (field; lra).
  assert (E3 : - ((q * (Qn b - Qn a) + K) / s) == (- (q * (Qn b - Qn a) + K)) / s) by (field; lra).
  rewrite E1, E2, E3. unfold Qdiv. pose proof (Qinv_lt_0_compat s Hs) as Hi. split; apply Qmult_le_compat_r; lra.
Qed.
Lemma flow_neg n u q K F : flow n u q K F -> flow n (1 - u) q K (fun t => Qn t - F t).
Proof. intros H a b Hab. pose proof (H a b Hab) as A1. apply qabs_le in A1. apply qabs_le. split; lra. Qed.

Definition counts (xs : list Z) (t : nat) : Q := inject_Z (ones (firstn t xs)).

(** ** The lane machine of FSUAdd *)
Lemma inflow_step off cols t : (t < length cols)%nat ->
  inflow off (firstn (S t) cols) == inflow off (firstn t cols) + (inject_Z (zsum (nth t cols [])) - off).
Proof.
  intros Ht. rewrite (firstn_S_nth cols t [] Ht). apply inflow_snoc.
Qed.

Lemma lane_queue lim s off acc0 cols : 0 < s -> s <= lim ->
  queue (length cols) (lim / s) (fun t => inflow off (firstn t cols) / s)
    (counts (outs (add_lane lim s off) acc0 cols)) (fun t => final (add_lane lim s off) acc0 (firstn t cols) / s).
Proof.
  intros Hs Hl t Ht. unfold counts. rewrite !outs_firstn. rewrite (inflow_step off cols t Ht), (firstn_S_nth cols t [] Ht).
  rewrite final_snoc, outs_snoc, ones_app, (ones_bit _ (add_lane_out_bit lim s off _ _)), inject_Z_plus.
  set (acc := final (add_lane lim s off) acc0 (firstn t cols)). set (col := nth t cols []). set (P := inflow off (firstn t cols)).
  set (N := inject_Z (ones (outs (add_lane lim s off) acc0 (firstn t cols)))).
  unfold add_lane, acc_step. set (dl := inject_Z (zsum col) - off). clearbody acc P N dl. cbn [fst snd].
  assert (Hj : s * / s == 1) by (field; lra). pose proof (Qinv_lt_0_compat s Hs) as Hp. unfold Qdiv. set (j := / s) in *. clearbody j.
  assert (LE : forall x y, x <= y -> x * j <= y * j) by (intros; apply Qmult_le_compat_r; lra).
  assert (LT : forall x y, x < y -> x * j < y * j) by (intros; apply Qmult_lt_compat_r; lra).
  destruct (Qlt_le_dec (acc + dl) s) as [C|C].
  - assert (E1 : qclamp (- lim) lim (acc + dl) < s) by (unfold qclamp, qmin, qmax; qcases; lra).
    rewrite (proj2 (qge_false _ _) E1). cbn [b2z]. change (inject_Z 0) with 0. right. split; [lra|].
    destruct (Qlt_le_dec (acc + dl) (- lim)) as [C2|C2].
    + assert (E2 : qclamp (- lim) lim (qclamp (- lim) lim (acc + dl) - 0 * s) == - lim) by (unfold qclamp, qmin, qmax; qcases; lra).
      rewrite E2. split; [pose proof (LT (- lim) s ltac:(lra)); lra|]. right. pose proof (LT _ _ C2). split; lra.
    + assert (E2 : qclamp (- lim) lim (qclamp (- lim) lim (acc + dl) - 0 * s) == acc + dl) by (unfold qclamp, qmin, qmax; qcases; lra).
      rewrite E2. split; [pose proof (LT _ _ C); lra|]. left. lra.
  - assert (E1 : s <= qclamp (- lim) lim (acc + dl)) by (unfold qclamp, qmin, qmax; qcases; lra).
    rewrite (proj2 (qge_true _ _) E1). cbn [b2z]. change (inject_Z 1) with 1. left. split; [lra|]. pose proof (LE _ _ C). split; [lra|].
    destruct (Qlt_le_dec lim (acc + dl)) as [C2|C2].
    + assert (E2 : qclamp (- lim) lim (qclamp (- lim) lim (acc + dl) - 1 * s) == lim - s) by (unfold qclamp, qmin, qmax; qcases; lra).
      rewrite E2. right. pose proof (LT _ _ C2). split; lra.
    + assert (E2 : qclamp (- lim) lim (qclamp (- lim) lim (acc + dl) - 1 * s) == acc + dl - s) by (unfold qclamp, qmin, qmax; qcases; lra).
      rewrite E2. left. lra.
Qed.

(** From acc0, which is A times the scale away from what a queue holds. *)
Theorem lane_flow lim s off acc0 cols A d q K : 0 < s -> 0 <= q -> 0 <= K -> 0 <= A -> s * (K + 2) <= lim ->
  - (s * A) <= acc0 <= s * (1 + A) ->
  flow (length cols) d q K (fun t => inflow off (firstn t cols) / s) ->
  flow (length cols) (clip01 d) q (2 * K + 1 + A) (counts (outs (add_lane lim s off) acc0 cols)).
Proof.
  intros Hs Hq HK HA HL H0 HF. assert (Hj : s * / s == 1) by (field; lra). pose proof (Qinv_lt_0_compat s Hs) as Hp.
  apply (queue_clips (length cols) (lim / s) A d q K (fun t => inflow off (firstn t cols) / s) _ (fun t => final (add_lane lim s off) acc0 (firstn t cols) / s)).
  - exact Hq.
  - exact HK.
  - exact HA.
  - apply Qle_shift_div_l; [exact Hs|]. lra.
  - cbn [firstn]. change (final (add_lane lim s off) acc0 []) with acc0. split; [apply Qle_shift_div_l|apply Qle_shift_div_r]; try exact Hs; lra.
  - exact HF.
  - apply lane_queue; [exact Hs|]. nra.
Qed.

(** ** Steady streams *)
Lemma stretch_app a b (xs : list Z) : (a <= b)%nat -> firstn b xs = firstn a xs ++ stretch a b xs.
Proof.
  intros H. unfold stretch. rewrite <- (firstn_skipn a (firstn b xs)) at 1. rewrite firstn_firstn, Nat.min_l by exact H. reflexivity.
Qed.
Lemma stretch_length a b (xs : list Z) : (a <= b <= length xs)%nat -> length (stretch a b xs) = (b - a)%nat.
Proof. intros H. unfold stretch. rewrite skipn_length, firstn_length. lia. Qed.
Lemma stretch_bits a b xs : bits xs -> bits (stretch a b xs).
Proof.
  intros H. unfold stretch. apply (forall_firstn bit b) in H. rewrite <- (firstn_skipn a (firstn b xs)) in H. apply Forall_app in H. exact (proj2 H).
Qed.
Lemma stretch_ones a b xs : (a <= b)%nat -> inject_Z (ones (stretch a b xs)) == counts xs b - counts xs a.
Proof. intros H. unfold counts. rewrite (stretch_app a b xs H), ones_app, inject_Z_plus. ring. Qed.
Lemma Qn_sub a b : (a <= b)%nat -> inject_Z (Z.of_nat (b - a)) == Qn b - Qn a.
Proof. intros H. unfold Qn. rewrite Nat2Z.inj_sub by exact H. unfold Z.sub. rewrite inject_Z_plus, inject_Z_opp. reflexivity. Qed.

Lemma steady_flow m q K v xs : bits xs -> 0 <= K -> steady m q K v xs -> flow (length xs) (to_prob m v) (q / span m) K (counts xs).
Proof.
  intros Hb HK H a b Hab. destruct (Nat.eq_dec a b) as [->|N]; [apply qabs_le; split; lra|].
  specialize (H a b ltac:(lia)). pose proof (stretch_length a b xs Hab) as SL.
  assert (Ne : stretch a b xs <> []) by (intros E; rewrite E in SL; cbn in SL; lia).
  apply (value_near m v _ _ (stretch_bits a b xs Hb) Ne) in H. destruct H as [_ H].
  rewrite (stretch_ones a b xs ltac:(lia)) in H. unfold zlen in H. rewrite SL in H.
  assert (T : 0 < inject_Z (Z.of_nat (b - a))) by (apply inj_pos; lia).
  assert (E : inject_Z (Z.of_nat (b - a)) * ((q + span m * K / inject_Z (Z.of_nat (b - a))) / span m) == q / span m * inject_Z (Z.of_nat (b - a)) + K).
  { pose proof (span_pos m). field. split; lra. }
  rewrite E in H. rewrite (Qn_sub a b ltac:(lia)) in H. apply qabs_le in H. apply qabs_le. split; lra.
Qed.
Lemma flow_steady m q K v u xs : bits xs -> u == to_prob m v -> flow (length xs) u q K (counts xs) -> steady m (span m * q) K v xs.
Proof.
  intros Hb Hu H a b Hab. specialize (H a b ltac:(lia)). pose proof (stretch_length a b xs ltac:(lia)) as SL.
  assert (Ne : stretch a b xs <> []) by (intros E; rewrite E in SL; cbn in SL; lia).
  assert (T : 0 < inject_Z (Z.of_nat (b - a))) by (apply inj_pos; lia).
  pose proof (near_value m (q * inject_Z (Z.of_nat (b - a)) + K) (to_prob m v) (stretch a b xs)) as V.
  rewrite of_to in V. unfold zlen in V. rewrite SL in V. eapply Qle_trans; [apply V; [|exact Ne]|].
  - split; [exact (stretch_bits a b xs Hb)|]. rewrite (stretch_ones a b xs ltac:(lia)). unfold zlen. rewrite SL, (Qn_sub a b ltac:(lia)).
    rewrite Hu in H. apply qabs_le in H. apply qabs_le. split; lra.
  - apply Qle_lteq. right. field. lra.
Qed.
Lemma steady_ext m q q' K K' v v' xs : q == q' -> K == K' -> v == v' -> steady m q K v xs -> steady m q' K' v' xs.
Proof. intros E1 E2 E3 H a b Hab. rewrite <- E1, <- E2, <- E3. exact (H a b Hab). Qed.
Lemma steady_le m q q' K K' v xs : q <= q' -> K <= K' -> steady m q K v xs -> steady m q' K' v xs.
Proof.
  intros Hq HK H a b Hab. eapply Qle_trans; [exact (H a b Hab)|]. assert (T : 0 < inject_Z (Z.of_nat (b - a))) by (apply inj_pos; lia).
  pose proof (span_pos m). assert (D : span m * K / inject_Z (Z.of_nat (b - a)) <= span m * K' / inject_Z (Z.of_nat (b - a))).
  { unfold Qdiv. apply Qmult_le_compat_r; [nra|]. apply Qlt_le_weak, Qinv_lt_0_compat, T. }
  lra.
Qed.
(** Moving the target. *)
Lemma steady_move m q K v v' d xs : Qabs (v - v') <= d -> steady m q K v xs -> steady m (q + d) K v' xs.
Proof.
  intros Hd H a b Hab. specialize (H a b Hab). apply qabs_le in Hd, H. apply qabs_le. set (X := span m * K / _) in *. clearbody X. split; lra.
Qed.
Lemma clip_prob m v : to_prob m (clip m v) == clip01 (to_prob m v).
Proof.
  destruct (clip01_cases (to_prob m v)) as [[C ->]|[[C ->]|[C ->]]]; unfold clip, to_prob in *; destruct m;
    repeat match goal with |- context [Qle_bool ?a ?b] => destruct (Qle_bool_spec a b) end; lra.
Qed.
Lemma clip_near m v v' d : Qabs (v - v') <= d -> Qabs (clip m v - clip m v') <= d.
Proof.
  intros H. apply qabs_le in H. apply qabs_le. unfold clip. destruct m;
    repeat match goal with |- context [Qle_bool ?a ?b] => destruct (Qle_bool_spec a b) end; lra.
Qed.
Lemma clip_in m v : Qabs (clip m v) <= 1.
Proof.
  apply qabs_le. unfold clip. destruct m; repeat match goal with |- context [Qle_bool ?a ?b] => destruct (Qle_bool_spec a b) end; lra.
Qed.
Lemma clip_comp m v v' : v == v' -> clip m v == clip m v'.
Proof.
  intros E. unfold clip. destruct m; repeat match goal with |- context [Qle_bool ?a ?b] => destruct (Qle_bool_spec a b) end; lra.
Qed.

(** ** FSUAdd *)
Definition entry_of (i : nat) (cols : list (list Z)) : list Z := map (fun col => nth i col 0%Z) cols.
Lemma col_total e cols : Forall (fun col => bits col /\ length col = e) cols ->
  inject_Z (zsum (map zsum cols)) == qsum (map (fun i => inject_Z (ones (entry_of i cols))) (seq 0 e)).
Proof.
  intros H. assert (E : zsum (map zsum cols) = zsum (map (fun i => ones (entry_of i cols)) (seq 0 e))).
  { induction H as [|col cols [Hb Hl] H IH].
    - clear. cbn [map zsum]. induction (seq 0 e) as [|x l IH]; [reflexivity|]. cbn [map zsum]. rewrite <- IH. reflexivity.
    - cbn [map zsum]. rewrite IH. assert (Z1 : zsum col = zsum (map (fun i => nth i col 0%Z) (seq 0 e))) by (rewrite <- Hl, map_nth_id; reflexivity).
      rewrite Z1. assert (Hn : Forall (fun i => bit (nth i col 0%Z)) (seq 0 e)).
      { apply Forall_forall. intros i Hi. apply in_seq in Hi. unfold bits in Hb. rewrite Forall_forall in Hb. apply Hb, nth_In. lia. }
      clear - Hn. induction Hn as [|i l Hi Hn IH]; [reflexivity|]. cbn [map zsum].
      assert (E1 : ones (entry_of i (col :: cols)) = (nth i col 0 + ones (entry_of i cols))%Z).
      { change (entry_of i (col :: cols)) with ([nth i col 0%Z] ++ entry_of i cols). rewrite ones_app, (ones_bit _ Hi). reflexivity. }
      rewrite E1. lia. }
  rewrite E. clear. induction (seq 0 e) as [|i l IH]; [reflexivity|]. cbn [map zsum qsum]. rewrite inject_Z_plus, IH. reflexivity.
Qed.

(** What a module that has been used before may still hold, in bits of output. *)
Definition held (used : bool) (lim s : Q) : Q := if used then lim / s else 0.
Lemma held_pos used lim s : 0 < s -> 0 <= lim -> 0 <= held used lim s.
Proof. intros Hs Hl. destruct used; unfold held; [apply Qle_shift_div_l; lra|apply Qle_refl]. Qed.
Lemma held_range (used : bool) lim s off cols : 0 < s -> 0 <= lim -> (used = false -> cols = []) ->
  - (s * held used lim s) <= final (add_lane lim s off) 0 cols <= s * (1 + held used lim s).
Proof.
  intros Hs Hl Hu. destruct used; unfold held.
  - pose proof (add_final_range lim s off cols Hl) as [R1 R2]. assert (E : s * (lim / s) == lim) by (field; lra).
    assert (E2 : s * (1 + lim / s) == s + lim) by (field; lra). rewrite E, E2. split; lra.
  - rewrite (Hu eq_refl). change (final (add_lane lim s off) 0 []) with 0. split; lra.
Qed.
Lemma entry_of_firstn i t cols : entry_of i (firstn t cols) = firstn t (entry_of i cols).
Proof. unfold entry_of. symmetry. apply firstn_map. Qed.
Lemma entry_of_length i cols : length (entry_of i cols) = length cols.
Proof. apply map_length. Qed.
Lemma entry_of_bits i e cols : Forall (fun col => bits col /\ length col = e) cols -> (i < e)%nat -> bits (entry_of i cols).
Proof.
  intros H Hi. apply Forall_forall. intros z Hz. unfold entry_of in Hz. apply in_map_iff in Hz. destruct Hz as (col & <- & Hc).
  rewrite Forall_forall in H. destruct (H col Hc) as [Hb Hl]. unfold bits in Hb. rewrite Forall_forall in Hb. apply Hb, nth_In. lia.
Qed.

(** The columns of an adder with e entries: what flows in. *)
Lemma cols_flow e off s cols (u q K : nat -> Q) : 0 < s -> Forall (fun col => bits col /\ length col = e) cols ->
  (forall i, (i < e)%nat -> flow (length cols) (u i) (q i) (K i) (counts (entry_of i cols))) ->
  flow (length cols) ((qtotal e u - off) / s) (qtotal e q / s) (qtotal e K / s) (fun t => inflow off (firstn t cols) / s).
Proof.
  intros Hs Hc H. apply flow_div; [exact Hs|].
  apply (flow_ext _ (qtotal e u - off) _ (qtotal e q) _ (qtotal e K) _ (fun t => qsum (map (fun i => counts (entry_of i cols) t) (seq 0 e)) - Qn t * off)); try reflexivity.
  - intros t Ht. unfold inflow. rewrite (col_total e (firstn t cols) (forall_firstn _ t cols Hc)).
    assert (Z1 : zlen (firstn t cols) = Z.of_nat t) by (unfold zlen; rewrite firstn_length; lia). rewrite Z1.
    assert (M1 : map (fun i => inject_Z (ones (entry_of i (firstn t cols)))) (seq 0 e) = map (fun i => counts (entry_of i cols) t) (seq 0 e)).
    { apply map_ext. intros i. rewrite entry_of_firstn. reflexivity. }
    rewrite M1. reflexivity.
  - apply (flow_shift _ (qtotal e u)). unfold qtotal. apply flow_sum. intros i Hi. apply in_seq in Hi. apply H. lia.
Qed.

Lemma qtotal_ext e f g : (forall i, (i < e)%nat -> f i == g i) -> qtotal e f == qtotal e g.
Proof.
  intros H. unfold qtotal. assert (G : forall i, In i (seq 0 e) -> f i == g i) by (intros i Hi; apply in_seq in Hi; apply H; lia).
  induction (seq 0 e) as [|i l IH]; [reflexivity|]. cbn [map qsum]. rewrite IH by (intros j Hj; apply G; right; exact Hj). rewrite (G i) by (left; reflexivity). reflexivity.
Qed.
Lemma qtotal_lin e f k c : qtotal e (fun i => k * f i + c) == k * qtotal e f + inject_Z (Z.of_nat e) * c.
Proof.
  unfold qtotal. assert (Ln : forall l : list nat, qsum (map (fun i => k * f i + c) l) == k * qsum (map f l) + inject_Z (zlen l) * c).
  { induction l as [|i l IH]; [cbn; ring|]. cbn [map qsum]. rewrite IH. unfold zlen. cbn [length]. rewrite Nat2Z.inj_succ, <- Z.add_1_r, inject_Z_plus. ring. }
  rewrite Ln. unfold zlen. rewrite seq_length. reflexivity.
Qed.
Lemma qtotal_nonneg e f : (forall i, (i < e)%nat -> 0 <= f i) -> 0 <= qtotal e f.
Proof.
  intros H. unfold qtotal. assert (G : forall i, In i (seq 0 e) -> 0 <= f i) by (intros i Hi; apply in_seq in Hi; apply H; lia).
  induction (seq 0 e) as [|i l IH]; [apply Qle_refl|]. cbn [map qsum]. pose proof (G i (or_introl eq_refl)). pose proof (IH (fun j Hj => G j (or_intror Hj))). lra.
Qed.
(** The offset of the mode turns the sum of the probabilities into the probability of the scaled sum. *)
Lemma offset_prob m e s v : 0 < s ->
  (qtotal e (fun i => to_prob m (v i)) - mode_offset m (Z.of_nat e) s) / s == to_prob m (qtotal e v / s).
Proof.
  intros Hs. destruct m; unfold to_prob, mode_offset.
  - change (qtotal e (fun i => v i)) with (qtotal e v). field. lra.
  - rewrite (qtotal_ext e (fun i => (v i + 1) * (1 # 2)) (fun i => (1 # 2) * v i + (1 # 2))) by (intros; ring). rewrite qtotal_lin. field. lra.
Qed.

Lemma adder_lane m e s lim acc0 A cols (q K v : nat -> Q) : 0 < s -> 0 <= A ->
  Forall (fun col => bits col /\ length col = e) cols ->
  (forall i, (i < e)%nat -> 0 <= q i /\ 0 <= K i /\ steady m (q i) (K i) (v i) (entry_of i cols)) ->
  qtotal e K + 2 * s <= lim -> - (s * A) <= acc0 <= s * (1 + A) ->
  steady m (qtotal e q / s) (2 * qtotal e K / s + 1 + A) (clip m (qtotal e v / s)) (outs (add_lane lim s (mode_offset m (Z.of_nat e) s)) acc0 cols).
Proof.
  intros Hs HA Hc H HL H0. set (off := mode_offset m (Z.of_nat e) s). pose proof (span_pos m) as SP.
  assert (F : forall i, (i < e)%nat -> flow (length cols) (to_prob m (v i)) (q i / span m) (K i) (counts (entry_of i cols))).
  { intros i Hi. destruct (H i Hi) as (Hq & HK & Hst). apply steady_flow in Hst; [|exact (entry_of_bits i e cols Hc Hi)|exact HK].
    rewrite entry_of_length in Hst. exact Hst. }
  pose proof (cols_flow e off s cols _ _ _ Hs Hc F) as G. unfold off in G. clear F.
  assert (K0 : 0 <= qtotal e K) by (apply qtotal_nonneg; intros i Hi; apply (H i Hi)).
  assert (Eq : qtotal e (fun i => q i / span m) == qtotal e q / span m).
  { rewrite (qtotal_ext e _ (fun i => / span m * q i + 0)) by (intros; field; lra). rewrite qtotal_lin. field. lra. }
  assert (Q0 : 0 <= qtotal e q) by (apply qtotal_nonneg; intros i Hi; apply (H i Hi)).
  assert (Eq2 : qtotal e (fun i => q i / span m) / s == qtotal e q / s / span m) by (rewrite Eq; field; split; lra).
  apply (flow_ext _ _ _ _ _ _ _ _ _ (offset_prob m e s v Hs) Eq2 (Qeq_refl _) (fun t _ => Qeq_refl _)) in G.
  apply (lane_flow lim s off acc0 cols A) in G.
  - pose proof (outs_length (add_lane lim s off) acc0 cols) as Lo. rewrite <- Lo in G.
    apply (flow_steady m _ _ (clip m (qtotal e v / s))) in G.
    + eapply steady_ext; [| |reflexivity|exact G]; field; repeat split; lra.
    + clear. revert acc0. induction cols as [|col cols IH]; intros acc0; [constructor|]. rewrite outs_cons. constructor; [apply add_lane_out_bit|apply IH].
    + symmetry. apply clip_prob.
  - exact Hs.
  - apply Qle_shift_div_l; [exact SP|]. rewrite Qmult_0_l. apply Qle_shift_div_l; [exact Hs|]. lra.
  - apply Qle_shift_div_l; [exact Hs|]. lra.
  - exact HA.
  - assert (E : s * (qtotal e K / s + 2) == qtotal e K + 2 * s) by (field; lra). rewrite E. exact HL.
  - exact H0.
Qed.

Theorem adder_steady : forall c m e s, fa_mode c = m ->
  resolved_entry None (fa_entry c) (Z.of_nat e) = Z.of_nat e -> resolved_scale None (fa_scale c) (Z.of_nat e) = s -> 0 < s ->
  forall (used : bool) h1 h2 (q K v : nat -> Q), (used = false -> h1 = []) ->
  Forall (fun col => bits col /\ length col = e) (h1 ++ h2) ->
  (forall i, (i < e)%nat -> 0 <= q i /\ 0 <= K i /\ steady m (q i) (K i) (v i) (map (fun col => nth i col 0%Z) h2)) ->
  qtotal e K + 2 * s <= Qpower 2 (fa_depth c - 2) ->
  steady m (qtotal e q / s) (2 * qtotal e K / s + 1 + (if used then Qpower 2 (fa_depth c - 2) / s else 0)) (clip m (qtotal e v / s))
    (skipn (length h1) (outs (fsuadd_step c) (fsuadd_init c) (h1 ++ h2))).
Proof.
  intros c m e s Em Ee Es Hs used h1 h2 q K v Hu Hc H HL.
  change (Qpower 2 (fa_depth c - 2)) with (acc_lim (fa_depth c)) in *. set (lim := acc_lim (fa_depth c)) in *.
  assert (L0 : 0 <= lim) by (apply Qlt_le_weak, qpow2_pos).
  assert (R : outs (fsuadd_step c) (fsuadd_init c) (h1 ++ h2) = outs (add_lane lim s (mode_offset m (Z.of_nat e) s)) 0 (h1 ++ h2)).
  { remember (h1 ++ h2) as h eqn:Eh. destruct h as [|col h]; [reflexivity|].
    destruct (fsuadd_step_run c col h) as [R _]. inversion Hc as [|? ? [_ Hl] _]; subst.
    assert (Zl : zlen col = Z.of_nat (length col)) by reflexivity. rewrite Zl, Ee in R. exact R. }
  rewrite R, outs_app. rewrite <- (outs_length (add_lane lim s (mode_offset m (Z.of_nat e) s)) 0 h1), skipn_app, skipn_all, Nat.sub_diag. cbn [skipn app].
  apply Forall_app in Hc. apply (adder_lane m e s lim _ (held used lim s) h2 q K v Hs (held_pos used lim s Hs L0) (proj2 Hc) H HL).
  apply held_range; assumption.
Qed.
