(** What units and networks do with inputs that repeat. *)
From Coq Require Import Lqa.
Require Import Verif.BaseLemmas Verif.PeriodSpec Verif.AddModel Verif.AddProof Verif.GenModel Verif.GenProof Verif.KernelModel Verif.KernelProof Verif.LinearModel Verif.LinearProof Verif.ChainProof Verif.ProgProof Verif.HubProof Verif.NetSpec Verif.NetProof Verif.MonoProof Verif.FaultProof.
Open Scope Z_scope.

Lemma ones_split l t P : (t + P <= length l)%nat -> ones (firstn (t + P) l) = ones (firstn t l) + ones (firstn P (skipn t l)).
Proof.
  intros H. rewrite <- ones_app. f_equal. rewrite <- (firstn_skipn t l) at 1.
  rewrite <- (firstn_length_le l (n := t)) at 1 by lia. apply firstn_app_2.
Qed.
Lemma value_of_prob m l : bits l -> (0 < length l)%nat -> (value m l == of_prob m (inject_Z (ones l) / inject_Z (zlen l)))%Q.
Proof.
  intros Hb L. unfold value, of_prob. destruct m; [reflexivity|]. rewrite (walk_ones l Hb).
  assert (P : (0 < inject_Z (zlen l))%Q) by (apply inj_pos; unfold zlen; lia).
  unfold Z.sub. rewrite inject_Z_plus, inject_Z_mult, inject_Z_opp. change (inject_Z 2) with 2%Q. field. lra.
Qed.
Lemma of_prob_inj m a b : (of_prob m a == of_prob m b)%Q -> (a == b)%Q.
Proof. unfold of_prob. destruct m; intros H; lra. Qed.
Lemma forall_skipn {A} (P : A -> Prop) n l : Forall P l -> Forall P (skipn n l).
Proof. intros H. rewrite <- (firstn_skipn n l) in H. apply Forall_app in H. exact (proj2 H). Qed.

(** Counts that grow by K every P cycles. *)
Definition grows (T0 P : nat) (K : Z) (len : nat) (f : nat -> Z) : Prop :=
  forall t, (T0 <= t)%nat -> (t + P <= len)%nat -> f (t + P)%nat = f t + K.
Lemma grows_times T0 P K len f j : grows T0 P K len f -> grows T0 (j * P) (Z.of_nat j * K) len f.
Proof.
  intros G. induction j as [|j IH]; intros t Ht Hl.
  - cbn [Nat.mul]. rewrite Nat.add_0_r. lia.
  - cbn [Nat.mul] in Hl |- *. replace (t + (P + j * P))%nat with (t + j * P + P)%nat by lia. rewrite G by lia. rewrite IH by lia. lia.
Qed.
Lemma repeats_grows m T0 P v xs : bits xs -> (1 <= P)%nat -> (T0 + P <= length xs)%nat -> repeats m T0 P v xs ->
  exists K, (of_prob m (inject_Z K / inject_Z (Z.of_nat P)) == v)%Q /\ grows T0 P K (length xs) (fun t => ones (firstn t xs)).
Proof.
  intros Hb HP HL [_ R].
  assert (W : forall t, (t + P <= length xs)%nat -> zlen (firstn P (skipn t xs)) = Z.of_nat P).
  { intros t Ht. unfold zlen. rewrite firstn_length, skipn_length. f_equal. lia. }
  assert (V : forall t, (T0 <= t)%nat -> (t + P <= length xs)%nat -> (of_prob m (inject_Z (ones (firstn P (skipn t xs))) / inject_Z (Z.of_nat P)) == v)%Q).
  { intros t Ht Hl. rewrite <- (W t Hl). rewrite <- value_of_prob; [apply R; assumption| |].
    - apply BaseLemmas.Forall_firstn, forall_skipn, Hb.
    - pose proof (W t Hl). unfold zlen in *. lia. }
  exists (ones (firstn P (skipn T0 xs))). split; [apply V; lia|]. intros t Ht Hl. rewrite ones_split by exact Hl. f_equal.
  pose proof (V t Ht Hl) as A. rewrite <- (V T0 (le_n _) HL) in A. apply of_prob_inj in A.
  assert (PQ : (0 < inject_Z (Z.of_nat P))%Q) by (apply inj_pos; lia).
  apply inject_Z_injective. set (p := inject_Z (Z.of_nat P)) in *.
  set (a := inject_Z (ones (firstn P (skipn t xs)))) in *. set (b := inject_Z (ones (firstn P (skipn T0 xs)))) in *.
  assert (a == (a / p) * p)%Q as -> by (field; lra). rewrite A. field. lra.
Qed.
Lemma grows_repeats m T0 P v xs K : bits xs -> (1 <= P)%nat -> grows T0 P K (length xs) (fun t => ones (firstn t xs)) ->
  (of_prob m (inject_Z K / inject_Z (Z.of_nat P)) == v)%Q -> repeats m T0 P v xs.
Proof.
  intros Hb HP G HV. split.
  - intros t Ht Hl. pose proof (G t Ht ltac:(lia)) as G0. pose proof (G (S t) ltac:(lia) ltac:(lia)) as G1. cbn beta in *.
    assert (F : forall s, (s < length xs)%nat -> ones (firstn (S s) xs) = ones (firstn s xs) + nth s xs 0).
    { intros s Hs. rewrite (BaseLemmas.firstn_S_nth xs s 0 Hs), ones_app. f_equal. unfold ones. cbn [countb].
      assert (B : bit (nth s xs 0)) by (unfold bits in Hb; rewrite Forall_forall in Hb; apply Hb, nth_In, Hs).
      destruct B as [-> | ->]; reflexivity. }
    rewrite Nat.add_succ_l in G1. rewrite F in G1 by lia. rewrite F in G1 by lia. lia.
  - intros t Ht Hl. pose proof (G t Ht Hl) as G0. cbn beta in G0. rewrite ones_split in G0 by exact Hl.
    assert (W : zlen (firstn P (skipn t xs)) = Z.of_nat P) by (unfold zlen; rewrite firstn_length, skipn_length; f_equal; lia).
    rewrite value_of_prob.
    + rewrite W. replace (ones (firstn P (skipn t xs))) with K by lia. exact HV.
    + apply BaseLemmas.Forall_firstn, forall_skipn, Hb.
    + unfold zlen in W. lia.
Qed.

(** ** The generator and the multiplier *)
Lemma below_add w l B n k : perm_seq w l -> 0 <= B <= p2 w -> 0 <= n -> 0 <= k -> below l B (Z.to_nat (n + k * p2 w)) = below l B (Z.to_nat n) + k * B.
Proof.
  intros HP HB Hn Hk. replace (Z.to_nat (n + k * p2 w)) with (Z.to_nat k * 2 ^ w + Z.to_nat n)%nat.
  - rewrite below_period_add by exact HP. rewrite Z2Nat.id by exact Hk. replace (zclamp 0 (p2 w) B) with B by (unfold zclamp; lia). lia.
  - apply Nat2Z.inj. rewrite Nat2Z.inj_add, Nat2Z.inj_mul, Nat2Z.inj_pow. change (Z.of_nat 2 ^ Z.of_nat w) with (p2 w). pose proof (p2_pos w).
    rewrite !Z2Nat.id by nia. lia.
Qed.
Lemma gen_grows w l B len : perm_seq w l -> 0 <= B <= p2 w -> grows 0 (2 ^ w) B len (fun t => below l B t).
Proof.
  intros HP HB t _ _. cbn beta. pose proof (below_add w l B (Z.of_nat t) 1 HP HB ltac:(lia) ltac:(lia)) as E.
  rewrite Nat2Z.id in E. rewrite Z.mul_1_l in E. replace (Z.to_nat (Z.of_nat t + p2 w)) with (t + 2 ^ w)%nat in E; [lia|].
  apply Nat2Z.inj. pose proof (p2_pos w). rewrite Z2Nat.id by lia. rewrite Nat2Z.inj_add, Nat2Z.inj_pow. reflexivity.
Qed.
Definition share (m : mode) (w : nat) (P : nat) (K B : Z) : Z :=
  match m with Unipolar => K * B | Bipolar => K * B + (Z.of_nat P - K) * (p2 w - B) end.
Definition fmul (m : mode) (B : Z) (rng xs : list Z) (t : nat) : Z := ones (outs (fsumul_static_step m B rng) fsumul_static_init (firstn t xs)).
Lemma mul_grows m w rng B T0 P K xs : perm_seq w rng -> 0 <= B <= p2 w -> bits xs ->
  grows T0 P K (length xs) (fun t => ones (firstn t xs)) ->
  grows T0 (2 ^ w * P) (share m w P K B) (length xs) (fmul m B rng xs).
Proof.
  intros HP HB Hb G t Ht Hl. unfold fmul. pose proof (perm_seq_len_pos w rng HP) as L.
  assert (Bt : forall s, bits (firstn s xs)) by (intros s; apply BaseLemmas.Forall_firstn, Hb).
  rewrite !(proj2 (mul_static_count m B rng _ L (Bt _))).
  pose proof (grows_times T0 P K (length xs) _ (2 ^ w) G t Ht Hl) as E. cbn beta in E.
  assert (PW : Z.of_nat (2 ^ w) = p2 w) by (rewrite Nat2Z.inj_pow; reflexivity). rewrite PW in E.
  pose proof (p2_pos w) as Pp. pose proof (ones_nonneg (firstn t xs)) as N1. pose proof (zeros_nonneg (firstn t xs)) as N0.
  pose proof (ones_zeros _ (Bt t)) as Z1. pose proof (ones_zeros _ (Bt (t + 2 ^ w * P)%nat)) as Z2.
  unfold zlen in Z1, Z2. rewrite firstn_length_le in Z1, Z2 by lia.
  assert (EZ : zeros (firstn (t + 2 ^ w * P) xs) = zeros (firstn t xs) + (Z.of_nat P - K) * p2 w).
  { rewrite Nat2Z.inj_add, Nat2Z.inj_mul, PW in Z2. nia. }
  destruct (Z_lt_le_dec K 0) as [Kn|Kp].
  { (* a window of bits never has a negative number of ones *)
    exfalso. destruct P as [|P]; [pose proof (G t Ht ltac:(lia)) as X; cbn beta in X; rewrite Nat.add_0_r in X; lia|].
    pose proof (G t Ht ltac:(nia)) as X. cbn beta in X. rewrite ones_split in X by nia. pose proof (ones_nonneg (firstn (S P) (skipn t xs))). lia. }
  assert (KP : K <= Z.of_nat P).
  { assert (HL : (t + P <= length xs)%nat) by (assert (2 ^ w <> 0)%nat by (apply Nat.pow_nonzero; lia); nia).
    pose proof (G t Ht HL) as X. cbn beta in X. rewrite ones_split in X by exact HL.
    assert (Bw : bits (firstn P (skipn t xs))) by (apply BaseLemmas.Forall_firstn, forall_skipn, Hb).
    pose proof (ones_zeros _ Bw) as Zw. pose proof (zeros_nonneg (firstn P (skipn t xs))). unfold zlen in Zw. rewrite firstn_length in Zw. lia. }
  rewrite E, EZ, (Z.mul_comm (p2 w) K). rewrite (below_add w rng B _ K HP HB N1 Kp). unfold share. destruct m; [lia|].
  rewrite (below_add w rng B _ (Z.of_nat P - K) HP HB N0) by lia. nia.
Qed.
Lemma share_value m w P K B : (1 <= P)%nat ->
  (of_prob m (inject_Z (share m w P K B) / inject_Z (Z.of_nat (2 ^ w * P))) == of_prob m (inject_Z K / inject_Z (Z.of_nat P)) * grid_value m w B)%Q.
Proof.
  intros HP. rewrite Nat2Z.inj_mul, Nat2Z.inj_pow. change (Z.of_nat 2 ^ Z.of_nat w) with (p2 w). rewrite inject_Z_mult.
  assert (PQ : (0 < inject_Z (Z.of_nat P))%Q) by (apply inj_pos; lia). pose proof (inj_pos _ (p2_pos w)) as WQ.
  unfold share, of_prob, grid_value. destruct m.
  - rewrite inject_Z_mult. field. split; lra.
  - unfold Z.sub. rewrite !inject_Z_plus, !inject_Z_mult, !inject_Z_plus, !inject_Z_opp. field. split; lra.
Qed.

Theorem gen_repeats : forall m w rng B n, perm_seq w rng -> 0 <= B <= p2 w -> repeats m 0 (2 ^ w) (grid_value m w B) (bsgen_stream B rng 0 n).
Proof.
  intros m w rng B n HP HB. pose proof (perm_seq_len_pos w rng HP) as L.
  assert (W : (1 <= 2 ^ w)%nat) by (assert (2 ^ w <> 0)%nat by (apply Nat.pow_nonzero; lia); lia).
  assert (E : bsgen_stream B rng 0 n = map (fun k => b2z (cyc rng k <? B)) (seq 0 n)) by (apply bsgen_stream0, L).
  assert (Hb : bits (bsgen_stream B rng 0 n)).
  { rewrite E. apply Forall_forall. intros x Hx. apply in_map_iff in Hx. destruct Hx as (k & <- & _). destruct (cyc rng k <? B); [right|left]; reflexivity. }
  assert (Ln : length (bsgen_stream B rng 0 n) = n) by (rewrite E, map_length, seq_length; reflexivity).
  apply (grows_repeats m 0 (2 ^ w) _ _ B Hb W).
  - intros t _ Hl. rewrite Ln in Hl.
    assert (F : forall s, (s <= n)%nat -> ones (firstn s (bsgen_stream B rng 0 n)) = below rng B s).
    { intros s Hs. rewrite E, firstn_map, firstn_seq by lia. rewrite (ones_map_b2z (fun k => cyc rng k <? B)). reflexivity. }
    rewrite !F by lia. apply (gen_grows w rng B (t + 2 ^ w) HP HB); lia.
  - rewrite Nat2Z.inj_pow. change (Z.of_nat 2 ^ Z.of_nat w) with (p2 w). unfold of_prob, grid_value. destruct m; reflexivity.
Qed.
Theorem mul_repeats : forall m w rng B T0 P v xs, perm_seq w rng -> 0 <= B <= p2 w -> bits xs -> (1 <= P)%nat -> repeats m T0 P v xs ->
  repeats m T0 (2 ^ w * P) (v * grid_value m w B) (outs (fsumul_static_step m B rng) fsumul_static_init xs).
Proof.
  intros m w rng B T0 P v xs HP HB Hb Hp R. pose proof (perm_seq_len_pos w rng HP) as L.
  assert (W : (1 <= 2 ^ w)%nat) by (assert (2 ^ w <> 0)%nat by (apply Nat.pow_nonzero; lia); lia).
  destruct (le_lt_dec (T0 + 2 ^ w * P) (length xs)) as [HL|HL].
  - destruct (repeats_grows m T0 P v xs Hb Hp ltac:(nia) R) as (K & HV & G).
    apply (grows_repeats m T0 _ _ _ (share m w P K B)).
    + exact (proj1 (mul_static_count m B rng xs L Hb)).
    + nia.
    + intros t Ht Hl. rewrite outs_length in Hl. rewrite <- !BaseLemmas.outs_firstn. exact (mul_grows m w rng B T0 P K xs HP HB Hb G t Ht Hl).
    + rewrite share_value by exact Hp. rewrite HV. reflexivity.
  - split; intros t Ht Hl; rewrite outs_length in Hl; lia.
Qed.

(** ** Layers *)
Lemma div_add_times a b e : 0 < e -> (a + e * b) / e = a / e + b.
Proof. intros He. rewrite Z.mul_comm. apply Z.div_add. lia. Qed.
Lemma zsum_add {A} (f g : A -> Z) l : zsum (map (fun i => f i + g i) l) = zsum (map f l) + zsum (map g l).
Proof. induction l as [|x l IH]; [reflexivity|]. cbn [map zsum]. lia. Qed.
Lemma zsum_scale {A} k (f : A -> Z) l : zsum (map (fun i => k * f i) l) = k * zsum (map f l).
Proof. induction l as [|x l IH]; cbn [map zsum]; lia. Qed.
Lemma map_choice {A} (R : nat -> A -> Prop) (d : A) n : (forall i, (i < n)%nat -> exists a, R i a) -> exists f, forall i, (i < n)%nat -> R i (f i).
Proof.
  induction n as [|n IH]; intros H; [exists (fun _ => d); lia|]. destruct IH as [f Hf]; [intros i Hi; apply H; lia|]. destruct (H n (Nat.lt_succ_diag_r n)) as [a Ha].
  exists (fun i => if Nat.eqb i n then a else f i). intros i Hi. destruct (Nat.eqb_spec i n) as [->|N]; [exact Ha|apply Hf; lia].
Qed.

Lemma le_times a b p : (1 <= a)%nat -> (1 <= b)%nat -> (p <= a * (b * p))%nat.
Proof. intros Ha Hb. apply Nat.le_trans with (b * p)%nat; nia. Qed.

Theorem linear_repeats : forall m w l, whole_layer m w l -> forall B T0 P h x, (1 <= B)%nat -> (1 <= P)%nat -> Forall (batch_ok B (pc_in (fst l))) h ->
  (forall b i, (b < B)%nat -> (i < pc_in (fst l))%nat -> repeats m T0 P (x b i) (lane h b i)) ->
  exists os, outputs (run_r (flin_step (fst l) (flin_acc_cfg (fst l) None (snd l))) (flin_init (fst l)) (no_args h)) = Some os /\
    length os = length h /\ Forall (batch_ok B (pc_out (fst l))) os /\
    forall b o, (b < B)%nat -> (o < pc_out (fst l))%nat -> repeats m T0 (fan_in l * (2 ^ w * P)) (grid_layer m w l (x b) o) (lane os b o).
Proof.
  intros m w [c d] ((Sh & Hr & Hw & He & Hd) & Em & HP & Wt & Bt) B T0 P h x HB Hp Hh Hx. cbn [fst snd] in *. unfold grid_layer, fan_in. cbn [fst snd].
  destruct (flin_rate c d B h Sh Hr Hw HB He Hd Hh) as (os & E & Lo & Fo & _).
  exists os. split; [exact E|]. split; [exact Lo|]. split; [exact Fo|]. intros b o Hb Ho.
  set (N := (pc_in c + match pc_bias c with None => 0 | Some _ => 1 end)%nat).
  assert (EN : Z.of_nat N = flin_entry c) by (unfold N, flin_entry; rewrite Nat2Z.inj_add; destruct (pc_bias c); reflexivity).
  assert (EN' : Z.of_nat (pc_in c) + match pc_bias c with None => 0 | Some _ => 1 end = Z.of_nat N) by (rewrite EN; unfold flin_entry; destruct (pc_bias c); reflexivity).
  assert (W : (1 <= 2 ^ w)%nat) by (assert (2 ^ w <> 0)%nat by (apply Nat.pow_nonzero; lia); lia).
  assert (N1 : (1 <= N)%nat) by lia.
  destruct (le_lt_dec (T0 + N * (2 ^ w * P)) (length h)) as [HL|HL].
  2: { split; intros t Ht Hl; rewrite LinearProof.lane_length, Lo in Hl; lia. }
  assert (PP : (P <= N * (2 ^ w * P))%nat) by (apply le_times; assumption).
  assert (HL0 : (T0 + P <= length h)%nat) by lia.
  assert (Lb : forall i, (i < pc_in c)%nat -> bits (lane h b i)) by (intros i Hi; apply (LinearProof.lane_bits B (pc_in c)); assumption).
  destruct (map_choice (fun i K => (of_prob m (inject_Z K / inject_Z (Z.of_nat P)) == x b i)%Q /\ grows T0 P K (length h) (fun t => ones (firstn t (lane h b i)))) 0 (pc_in c)) as (K & HK).
  { intros i Hi. destruct (repeats_grows m T0 P (x b i) (lane h b i) (Lb i Hi) Hp ltac:(rewrite LinearProof.lane_length; exact HL0) (Hx b i Hb Hi)) as (k & A & G).
    rewrite LinearProof.lane_length in G. exists k. split; assumption. }
  set (bshare := match pc_bias c with None => 0 | Some bs => Z.of_nat P * nth o bs 0 end).
  set (S := zsum (map (fun i => share m w P (K i) (entry2 (pc_weight c) o i)) (seq 0 (pc_in c))) + bshare).
  set (gb := fun t => match pc_bias c with None => 0 | Some bs => below (pc_rng c) (nth o bs 0) t end).
  assert (C : forall t, (t <= length h)%nat -> ones (firstn t (lane os b o)) =
    (zsum (map (fun i => fmul m (entry2 (pc_weight c) o i) (pc_rng c) (lane h b i) t) (seq 0 (pc_in c))) + gb t) / Z.of_nat N).
  { intros t Ht. destruct (flin_rate c d B (firstn t h) Sh Hr Hw HB He Hd (BaseLemmas.Forall_firstn _ _ _ Hh)) as (p1 & F1 & _ & _ & G1).
    rewrite <- no_args_firstn in F1. rewrite (run_r_firstn _ t _ _ _ E) in F1. injection F1 as <-. specialize (G1 b o Hb Ho).
    rewrite LinearProof.lane_firstn, EN', Em in G1. rewrite G1. f_equal. f_equal.
    - f_equal. apply map_ext. intros i. unfold fmul. rewrite LinearProof.lane_firstn. reflexivity.
    - unfold gb. destruct (pc_bias c) as [bs|]; [|reflexivity]. rewrite firstn_length, Nat.min_l by exact Ht. rewrite below_stream by exact Hr. reflexivity. }
  apply (grows_repeats m T0 _ _ _ S).
  - apply (LinearProof.lane_bits B (pc_out c)); assumption.
  - lia.
  - intros t Ht Hl. rewrite LinearProof.lane_length, Lo in Hl. rewrite !C by lia. rewrite <- div_add_times by lia. f_equal.
    assert (GI : forall i, (i < pc_in c)%nat -> fmul m (entry2 (pc_weight c) o i) (pc_rng c) (lane h b i) (t + N * (2 ^ w * P)) =
      fmul m (entry2 (pc_weight c) o i) (pc_rng c) (lane h b i) t + Z.of_nat N * share m w P (K i) (entry2 (pc_weight c) o i)).
    { intros i Hi. destruct (HK i Hi) as [_ G]. rewrite <- (LinearProof.lane_length h b i) in G.
      apply (grows_times T0 _ _ (length h) _ N); [|exact Ht|exact Hl].
      rewrite <- (LinearProof.lane_length h b i). apply mul_grows; [exact HP|apply Wt; assumption|apply Lb, Hi|exact G]. }
    rewrite (map_ext_in _ (fun i => fmul m (entry2 (pc_weight c) o i) (pc_rng c) (lane h b i) t + Z.of_nat N * share m w P (K i) (entry2 (pc_weight c) o i)) (seq 0 (pc_in c)))
      by (intros i Hi; apply in_seq in Hi; apply GI; lia).
    rewrite zsum_add, zsum_scale. unfold S.
    assert (GB : gb (t + N * (2 ^ w * P))%nat = gb t + Z.of_nat N * bshare).
    { unfold gb, bshare. destruct (pc_bias c) as [bs|]; [|lia].
      pose proof (grows_times 0 _ _ (length h) _ (N * P) (gen_grows w (pc_rng c) (nth o bs 0) (length h) HP (Bt o Ho)) t ltac:(lia)) as G.
      replace (N * (2 ^ w * P))%nat with (N * P * 2 ^ w)%nat in * by lia. rewrite G by exact Hl. rewrite Nat2Z.inj_mul. lia. }
    rewrite GB. lia.
  - assert (PQ : (0 < inject_Z (Z.of_nat P))%Q) by (apply inj_pos; lia). pose proof (inj_pos _ (p2_pos w)) as WQ.
    assert (NQ : (0 < inject_Z (Z.of_nat N))%Q) by (apply inj_pos; lia).
    set (D := Z.of_nat (2 ^ w * P)).
    assert (DQ : (0 < inject_Z D)%Q) by (apply inj_pos; unfold D; nia).
    rewrite Nat2Z.inj_mul, inject_Z_mult. fold D.
    assert (HS : forall is, (forall i, In i is -> (i < pc_in c)%nat) ->
      (qsum (map (fun i => x b i * grid_value m w (entry2 (pc_weight c) o i)) is) ==
       match m with Unipolar => inject_Z (zsum (map (fun i => share m w P (K i) (entry2 (pc_weight c) o i)) is)) / inject_Z D
       | Bipolar => 2 * (inject_Z (zsum (map (fun i => share m w P (K i) (entry2 (pc_weight c) o i)) is)) / inject_Z D) - inject_Z (zlen is) end)%Q).
    { induction is as [|i is IH]; intros Hin.
      - cbn [map zsum qsum]. change (zlen (@nil nat)) with 0. change (inject_Z 0) with 0%Q. destruct m; field; lra.
      - cbn [map zsum qsum]. rewrite IH by (intros j Hj; apply Hin; right; exact Hj). destruct (HK i (Hin i (or_introl eq_refl))) as [A _].
        rewrite <- A, <- share_value by exact Hp. fold D. set (a := share m w P (K i) (entry2 (pc_weight c) o i)). set (z := zsum _).
        replace (zlen (i :: is)) with (1 + zlen is) by (unfold zlen; cbn [length]; lia). rewrite !inject_Z_plus. change (inject_Z 1) with 1%Q.
        unfold of_prob. destruct m; field; lra. }
    rewrite HS by (intros i Hi; apply in_seq in Hi; lia). unfold S. set (z := zsum _). clearbody z.
    replace (zlen (seq 0 (pc_in c))) with (Z.of_nat (pc_in c)) by (unfold zlen; rewrite seq_length; reflexivity).
    assert (ED : (inject_Z D == inject_Z (p2 w) * inject_Z (Z.of_nat P))%Q).
    { unfold D. rewrite Nat2Z.inj_mul, Nat2Z.inj_pow, inject_Z_mult. reflexivity. }
    rewrite inject_Z_plus. unfold bshare, of_prob, grid_value. clearbody D. clear - ED PQ WQ NQ DQ. subst N. rewrite Nat2Z.inj_add in *. rewrite inject_Z_plus in *.
    set (n := inject_Z (Z.of_nat (pc_in c))) in *. set (p := inject_Z (Z.of_nat P)) in *. set (q := inject_Z (p2 w)) in *. set (dd := inject_Z D) in *.
    set (zz := inject_Z z). clearbody n q dd zz.
    destruct (pc_bias c) as [bs|].
    + rewrite inject_Z_mult. fold p. clearbody p. change (inject_Z (Z.of_nat 1)) with 1%Q in *. set (bb := inject_Z (nth o bs 0)). clearbody bb. destruct m; rewrite ED; field; repeat split; lra.
    + change (inject_Z (Z.of_nat 0)) with 0%Q in *. change (inject_Z 0) with 0%Q. destruct m; rewrite ED; field; repeat split; lra.
Qed.

Theorem net_repeats : forall m w ls, Forall (whole_layer m w) ls -> forall n B T0 P h x, fitted n ls -> (1 <= B)%nat -> (1 <= P)%nat -> Forall (batch_ok B n) h ->
  (forall b i, (b < B)%nat -> (i < n)%nat -> repeats m T0 P (x b i) (lane h b i)) ->
  exists os, outputs (run_r (net_step (map plain ls)) (net_init (map plain ls)) h) = Some os /\ length os = length h /\
    forall b o, (b < B)%nat -> (o < width_out n ls)%nat -> repeats m T0 (net_period w ls P) (grid_net m w ls (x b) o) (lane os b o).
Proof.
  intros m w ls HF. induction HF as [|l ls Hl _ IH]; intros n B T0 P h x F HB HP Hh Hx.
  - exists h. split; [apply net_nil_run|]. split; [reflexivity|exact Hx].
  - cbn [fitted] in F. destruct F as (S1 & I1 & F). subst n.
    destruct (linear_repeats m w l Hl B T0 P h x HB HP Hh Hx) as (mid & E1 & L1 & F1 & R1).
    assert (P' : (1 <= fan_in l * (2 ^ w * P))%nat).
    { destruct Hl as ((_ & _ & _ & He & _) & _). assert (2 ^ w <> 0)%nat by (apply Nat.pow_nonzero; lia). unfold flin_entry in He. unfold fan_in. destruct (pc_bias (fst l)); nia. }
    destruct (IH _ B T0 _ mid (fun b => grid_layer m w l (x b)) F HB P' F1 R1) as (os & E2 & L2 & R2).
    exists os. cbn [map]. unfold net_init. cbn [map]. split; [exact (net_run _ _ _ _ _ _ _ _ E1 E2)|]. split; [congruence|]. exact R2.
Qed.

Lemma bsgen_len B rng n : (0 < length rng)%nat -> length (bsgen_stream B rng 0 n) = n.
Proof. intros L. rewrite bsgen_stream0 by exact L. rewrite map_length, seq_length. reflexivity. Qed.
(** Run on generated inputs for one period of the whole network. *)
Theorem net_exact : forall m w ls, Forall (whole_layer m w) ls -> forall n B h v rngx (num : nat -> nat -> Z), fitted n ls -> (1 <= B)%nat -> Forall (batch_ok B n) h ->
  perm_seq v rngx -> length h = net_period w ls (2 ^ v) ->
  (forall b i, (b < B)%nat -> (i < n)%nat -> 0 <= num b i <= p2 v /\ lane h b i = bsgen_stream (num b i) rngx 0 (length h)) ->
  exists os, outputs (run_r (net_step (map plain ls)) (net_init (map plain ls)) h) = Some os /\ length os = length h /\
    forall b o, (b < B)%nat -> (o < width_out n ls)%nat -> (value m (lane os b o) == grid_net m w ls (fun i => grid_value m v (num b i)) o)%Q.
Proof.
  intros m w ls HF n B h v rngx num F HB Hh HP EL Hx.
  assert (W : (1 <= 2 ^ v)%nat) by (assert (2 ^ v <> 0)%nat by (apply Nat.pow_nonzero; lia); lia).
  destruct (net_repeats m w ls HF n B 0 (2 ^ v) h (fun b i => grid_value m v (num b i)) F HB W Hh) as (os & E & L & R).
  { intros b i Hb Hi. destruct (Hx b i Hb Hi) as [Hn ->]. apply gen_repeats; assumption. }
  exists os. split; [exact E|]. split; [exact L|]. intros b o Hb Ho. destruct (R b o Hb Ho) as [_ V].
  specialize (V 0%nat (le_n _)). rewrite LinearProof.lane_length in V. specialize (V ltac:(lia)). cbn [skipn] in V.
  rewrite firstn_all2 in V by (rewrite LinearProof.lane_length; lia). exact V.
Qed.
