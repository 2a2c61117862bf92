(** What FSUReLU does with streams that repeat. *)
From Coq Require Import Lqa ListDec.
Require Import Verif.BaseLemmas Verif.PeriodSpec Verif.KernelModel Verif.AddProof Verif.ProgProof Verif.CnnSpec Verif.CnnProof Verif.PeriodProof.
Open Scope Z_scope.

Fixpoint acc (f : nat -> Z) (n : nat) : Z := match n with O => 0 | S k => acc f k + f k end.
Lemma acc_ext f g n : (forall i, (i < n)%nat -> f i = g i) -> acc f n = acc g n.
Proof. induction n as [|n IH]; intros H; [reflexivity|]. cbn [acc]. rewrite H by lia. rewrite IH; [reflexivity|]. intros i Hi. apply H. lia. Qed.
Lemma acc_over f A J t : (A <= t)%nat -> (forall s, (A <= s)%nat -> f (s + J)%nat = f s) -> acc f (t + J) - acc f t = acc f (A + J) - acc f A.
Proof.
  intros Ht H. induction t as [|t IH].
  - replace A with 0%nat by lia. reflexivity.
  - destruct (Nat.eq_dec A (S t)) as [->|Hn]; [reflexivity|]. specialize (IH ltac:(lia)). cbn [Nat.add acc]. rewrite H by lia. lia.
Qed.
Lemma acc_times f P q t : (forall s, f (s + P)%nat = f s) -> acc f (t + q * P) = acc f t + Z.of_nat q * acc f P.
Proof.
  intros H. induction q as [|q IH]; [rewrite Nat.mul_0_l, Nat.add_0_r; lia|].
  replace (t + S q * P)%nat with (t + q * P + P)%nat by lia.
  pose proof (acc_over f 0 P (t + q * P) ltac:(lia) (fun s _ => H s)) as E. cbn [Nat.add acc] in E. lia.
Qed.

Lemma doubled : forall l : list nat, ~ NoDup l -> exists a b, (a < b < length l)%nat /\ nth a l 0%nat = nth b l 0%nat.
Proof.
  induction l as [|y l IH]; intros D; [exfalso; apply D; constructor|].
  destruct (in_dec Nat.eq_dec y l) as [I|I].
  - destruct (In_nth l y 0%nat I) as (b & Hb & E). exists 0%nat, (S b). cbn [length nth]. split; [lia|]. symmetry. exact E.
  - destruct IH as (a & b & Hab & E); [intros N; apply D; constructor; assumption|]. exists (S a), (S b). cbn [length nth]. split; [lia|exact E].
Qed.
Lemma meet n : forall f : nat -> nat, (forall i, (i <= n)%nat -> (f i < n)%nat) -> exists a b, (a < b <= n)%nat /\ f a = f b.
Proof.
  intros f H. destruct (NoDup_dec Nat.eq_dec (map f (seq 0 (S n)))) as [D|D].
  - exfalso. assert (I : incl (map f (seq 0 (S n))) (seq 0 n)).
    { intros y Hy. apply in_map_iff in Hy. destruct Hy as (i & <- & Hi). apply in_seq in Hi. apply in_seq. specialize (H i). lia. }
    pose proof (NoDup_incl_length D I) as L. rewrite map_length, !seq_length in L. lia.
  - destruct (doubled _ D) as (a & b & Hab & E). rewrite map_length, seq_length in Hab. exists a, b. split; [lia|].
    assert (X : forall i, (i < S n)%nat -> nth i (map f (seq 0 (S n))) 0%nat = f i).
    { intros i Hi. rewrite (nth_indep _ 0%nat (f 0%nat)) by (rewrite map_length, seq_length; lia). rewrite map_nth, seq_nth by exact Hi. reflexivity. }
    rewrite !X in E by lia. exact E.
Qed.

Section Cycle.
  Variables (half : Z) (P : nat) (x r o : nat -> Z).
  Hypothesis HP : (1 <= P)%nat.
  Hypothesis Hh : Z.of_nat P < half.
  Hypothesis Hx : forall t, bit (x t).
  Hypothesis Hper : forall t, x (t + P)%nat = x t.
  Hypothesis H0 : -1 <= r 0%nat <= half - 1.
  Hypothesis Hf : forall t, r t = -1 -> r (S t) = 0 /\ o t = 1.
  Hypothesis Hp : forall t, 0 <= r t -> o t = x t /\ r (S t) = Z.min (half - 1) (r t + 2 * x t - 1).

  Let W := acc (fun t => 2 * x t - 1).
  Lemma c_range t : -1 <= r t <= half - 1.
  Proof.
    induction t as [|t IH]; [exact H0|]. destruct (Z.eq_dec (r t) (-1)) as [E|E].
    - destruct (Hf t E). lia.
    - destruct (Hp t ltac:(lia)) as [_ ->]. destruct (Hx t) as [-> | ->]; lia.
  Qed.
  Lemma c_near s e : - Z.of_nat e <= W (s + e)%nat - W s <= Z.of_nat e.
  Proof.
    induction e as [|e IH]; [rewrite Nat.add_0_r; lia|]. rewrite Nat.add_succ_r. unfold W in *. cbn [acc]. cbn beta.
    destruct (Hx (s + e)) as [-> | ->]; lia.
  Qed.
  Lemma c_far s t : (s <= t)%nat -> exists q e, (e < P)%nat /\ 0 <= q /\ W t - W s = q * W P + (W (s + e)%nat - W s).
  Proof.
    intros H. exists (Z.of_nat ((t - s) / P)), ((t - s) mod P)%nat.
    pose proof (Nat.mod_upper_bound (t - s) P ltac:(lia)). split; [assumption|]. split; [apply Nat2Z.is_nonneg|].
    pose proof (Nat.div_mod (t - s) P ltac:(lia)) as D.
    replace t with (s + (t - s) mod P + (t - s) / P * P)%nat at 1 by lia.
    unfold W. rewrite acc_times; [lia|]. intros u. rewrite Hper. reflexivity.
  Qed.
  (** The counter cannot climb from the bottom to the top when the stream falls, nor sink from the top to the bottom when it rises. *)
  Lemma c_low u : W P <= 0 -> r u = -1 -> forall t, (u <= t)%nat -> r t < half - 1.
  Proof.
    intros HS Hu t Ht.
    assert (I : r t = -1 \/ exists s, (u <= s <= t)%nat /\ r t <= W t - W s).
    { induction t as [|t IH]; [left; replace 0%nat with u by lia; exact Hu|].
      destruct (Nat.eq_dec u (S t)) as [->|Hn]; [left; exact Hu|]. specialize (IH ltac:(lia)).
      destruct (Z.eq_dec (r t) (-1)) as [E|E].
      - right. exists (S t). destruct (Hf t E). split; lia.
      - pose proof (c_range t). destruct IH as [IH|(s & Hs & IH)]; [lia|]. right. exists s. split; [lia|].
        destruct (Hp t ltac:(lia)) as [_ ->]. unfold W in *. cbn [acc]. lia. }
    destruct I as [->|(s & Hs & I)]; [lia|].
    destruct (c_far s t ltac:(lia)) as (q & e & He & Hq & E). pose proof (c_near s e). nia.
  Qed.
  Lemma c_high u : 0 <= W P -> r u = half - 1 -> forall t, (u <= t)%nat -> 0 <= r t.
  Proof.
    intros HS Hu t Ht.
    assert (I : exists s, (u <= s <= t)%nat /\ half - 1 + (W t - W s) <= r t).
    { induction t as [|t IH]; [exists u; split; [lia|]; replace 0%nat with u by lia; lia|].
      destruct (Nat.eq_dec u (S t)) as [->|Hn]; [exists (S t); split; lia|]. destruct (IH ltac:(lia)) as (s & Hs & B). clear IH.
      destruct (Z.eq_dec (r t) (-1)) as [E|E].
      - exists s. split; [lia|]. destruct (Hf t E) as [-> _]. unfold W in *. cbn [acc]. destruct (Hx t) as [-> | ->]; lia.
      - pose proof (c_range t). destruct (Hp t ltac:(lia)) as [_ ->].
        destruct (Z_le_gt_dec (half - 1) (r t + 2 * x t - 1)) as [C|C].
        + exists (S t). split; lia.
        + exists s. split; [lia|]. unfold W in *. cbn [acc]. lia. }
    destruct I as (s & Hs & I). destruct (c_far s t ltac:(lia)) as (q & e & He & Hq & E). pose proof (c_near s e). nia.
  Qed.

  (** From a cycle A on the counter and the output repeat every j P cycles. *)
  Variables (A j : nat).
  Hypothesis Hj : (1 <= j)%nat.
  Hypothesis HA : r (A + j * P)%nat = r A.
  Lemma x_times k t : x (t + k * P)%nat = x t.
  Proof. induction k as [|k IH]; [f_equal; lia|]. replace (t + S k * P)%nat with (t + k * P + P)%nat by lia. rewrite Hper. exact IH. Qed.
  Lemma c_next t u : r t = r u -> x t = x u -> r (S t) = r (S u) /\ o t = o u.
  Proof.
    intros E F. destruct (Z.eq_dec (r t) (-1)) as [G|G].
    - destruct (Hf t G), (Hf u ltac:(congruence)). split; congruence.
    - pose proof (c_range t). destruct (Hp t ltac:(lia)) as [-> ->], (Hp u ltac:(lia)) as [-> ->]. rewrite E, F. split; reflexivity.
  Qed.
  Lemma c_cycle t : (A <= t)%nat -> r (t + j * P)%nat = r t.
  Proof.
    intros H. induction t as [|t IH]; [replace A with 0%nat in * by lia; exact HA|].
    destruct (Nat.eq_dec A (S t)) as [<-|Hn]; [exact HA|]. specialize (IH ltac:(lia)).
    apply (c_next (t + j * P) t IH). apply x_times.
  Qed.
  Lemma c_out t : (A <= t)%nat -> o (t + j * P)%nat = o t.
  Proof. intros H. apply (c_next _ _ (c_cycle t H)). apply x_times. Qed.
  Lemma c_cycles k t : (A <= t)%nat -> r (t + k * (j * P))%nat = r t.
  Proof.
    intros H. induction k as [|k IH]; [f_equal; lia|]. replace (t + S k * (j * P))%nat with (t + k * (j * P) + j * P)%nat by lia.
    rewrite c_cycle by lia. exact IH.
  Qed.
  Lemma c_either : (forall t, (A <= t)%nat -> 0 <= r t) \/ (forall t, (A <= t)%nat -> r t < half - 1).
  Proof.
    assert (J : (1 <= j * P)%nat) by nia.
    destruct (Z_le_gt_dec 0 (W P)) as [S0|S0].
    - destruct (List.Exists_dec (fun t => r t = half - 1) (seq A (j * P)) (fun t => Z.eq_dec _ _)) as [E|E].
      + left. apply List.Exists_exists in E. destruct E as (u & Hu & E). apply in_seq in Hu.
        intros t Ht. rewrite <- (c_cycles u t Ht). apply (c_high u S0 E). nia.
      + right. intros t Ht. pose proof (c_range t). destruct (Z.eq_dec (r t) (half - 1)) as [F|F]; [|lia]. exfalso. apply E.
        apply List.Exists_exists. exists (A + (t - A) mod (j * P))%nat.
        pose proof (Nat.mod_upper_bound (t - A) (j * P) ltac:(lia)) as B. split; [apply in_seq; lia|].
        rewrite <- F. pose proof (Nat.div_mod (t - A) (j * P) ltac:(lia)) as D.
        rewrite <- (c_cycles ((t - A) / (j * P)) (A + (t - A) mod (j * P))) by lia. f_equal. lia.
    - destruct (List.Exists_dec (fun t => r t = -1) (seq A (j * P)) (fun t => Z.eq_dec _ _)) as [E|E].
      + right. apply List.Exists_exists in E. destruct E as (u & Hu & E). apply in_seq in Hu.
        intros t Ht. rewrite <- (c_cycles u t Ht). apply (c_low u ltac:(lia) E). nia.
      + left. intros t Ht. pose proof (c_range t). destruct (Z.eq_dec (r t) (-1)) as [F|F]; [|lia]. exfalso. apply E.
        apply List.Exists_exists. exists (A + (t - A) mod (j * P))%nat.
        pose proof (Nat.mod_upper_bound (t - A) (j * P) ltac:(lia)) as B. split; [apply in_seq; lia|].
        rewrite <- F. pose proof (Nat.div_mod (t - A) (j * P) ltac:(lia)) as D.
        rewrite <- (c_cycles ((t - A) / (j * P)) (A + (t - A) mod (j * P))) by lia. f_equal. lia.
  Qed.
  Lemma c_count : 2 * (acc o (A + j * P) - acc o A) = Z.of_nat (j * P) + Z.of_nat j * Z.max 0 (W P).
  Proof.
    assert (T : W (A + j * P)%nat - W A = Z.of_nat j * W P) by (unfold W; rewrite acc_times; [lia|intros u; rewrite Hper; reflexivity]).
    destruct c_either as [N|N].
    - assert (G : forall n, 2 * (acc o (A + n) - acc o A) = Z.of_nat n + (W (A + n)%nat - W A) /\ r (A + n)%nat - r A <= W (A + n)%nat - W A).
      { induction n as [|n [I1 I2]]; [rewrite !Nat.add_0_r; lia|]. rewrite !Nat.add_succ_r. unfold W in *. cbn [acc].
        destruct (Hp (A + n)%nat (N (A + n)%nat ltac:(lia))) as [E1 E2]. rewrite E1, E2. lia. }
      destruct (G (j * P)%nat) as [G1 G2]. rewrite HA in G2. nia.
    - assert (G : forall n, 2 * (acc o (A + n) - acc o A) = Z.of_nat n + (r (A + n)%nat - r A) /\ W (A + n)%nat - W A <= r (A + n)%nat - r A).
      { induction n as [|n [I1 I2]]; [rewrite !Nat.add_0_r; lia|]. rewrite !Nat.add_succ_r. unfold W in *. cbn [acc].
        pose proof (N (A + n)%nat ltac:(lia)). pose proof (N (S (A + n)) ltac:(lia)).
        destruct (Z.eq_dec (r (A + n)%nat) (-1)) as [E|E].
        - destruct (Hf _ E) as [E1 E2]. rewrite E1, E2. destruct (Hx (A + n)) as [-> | ->]; lia.
        - pose proof (c_range (A + n)). destruct (Hp (A + n)%nat ltac:(lia)) as [E1 E2]. rewrite E2 in *. rewrite E1. lia. }
      destruct (G (j * P)%nat) as [G1 G2]. rewrite HA in *. nia.
  Qed.
End Cycle.

Fixpoint states (d : nat) (a : Z) (x : nat -> Z) (t : nat) : Z := match t with O => a | S k => fst (fsurelu_step d (states d a x k) (x k)) end.

Lemma ones_acc (l : list Z) T0 f : forall n, bits l -> (T0 + n <= length l)%nat -> (forall i, (T0 + i < length l)%nat -> nth (T0 + i) l 0 = f i) ->
  ones (firstn (T0 + n) l) = ones (firstn T0 l) + acc f n.
Proof.
  induction n as [|n IH]; intros Hb Hl E; [rewrite Nat.add_0_r; cbn [acc]; lia|].
  rewrite Nat.add_succ_r. rewrite (BaseLemmas.firstn_S_nth l (T0 + n) 0) by lia. rewrite ones_app, IH by (try assumption; lia).
  rewrite ones_bit by (unfold bits in Hb; rewrite Forall_forall in Hb; apply Hb, nth_In; lia).
  rewrite E by lia. cbn [acc]. lia.
Qed.

Theorem relu_repeats : forall d T0 P v xs, bits xs -> (1 <= P)%nat -> (P < 2 ^ d)%nat -> repeats Bipolar T0 P v xs ->
  exists a j, (1 <= j)%nat /\ (a + j <= 2 ^ d + 1)%nat /\
    repeats Bipolar (T0 + a * P) (j * P) (pos_part v) (outs (fsurelu_step d) (fsurelu_init d) xs).
Proof.
  intros d T0 P v xs Hb HP Hd R.
  destruct (le_lt_dec (T0 + P) (length xs)) as [HL|HL].
  2:{ exists 0%nat, 1%nat. split; [lia|]. split; [lia|]. split; intros t Ht Hl; rewrite outs_length in Hl; lia. }
  set (st := final (fsurelu_step d) (fsurelu_init d) (firstn T0 xs)).
  set (x := fun t => nth (T0 + t mod P) xs 0).
  assert (Hn : forall t, (T0 + t < length xs)%nat -> nth (T0 + t) xs 0 = x t).
  { intros t. unfold x. induction t as [t IH] using (well_founded_induction lt_wf). intros Ht. destruct (le_lt_dec P t) as [G|G].
    - destruct R as [R1 _]. replace (T0 + t)%nat with (T0 + (t - P) + P)%nat by lia. rewrite R1 by lia. rewrite IH by lia.
      f_equal. f_equal. replace t with (t - P + 1 * P)%nat at 2 by lia. rewrite Nat.mod_add by lia. reflexivity.
    - rewrite Nat.mod_small by exact G. reflexivity. }
  assert (Hx : forall t, bit (x t)).
  { intros t. unfold x. unfold bits in Hb. rewrite Forall_forall in Hb. apply Hb, nth_In. pose proof (Nat.mod_upper_bound t P ltac:(lia)). lia. }
  assert (Hper : forall t, x (t + P)%nat = x t).
  { intros t. unfold x. f_equal. f_equal. replace (t + P)%nat with (t + 1 * P)%nat by lia. apply Nat.mod_add. lia. }
  assert (Hs : forall t, (T0 + t <= length xs)%nat -> final (fsurelu_step d) (fsurelu_init d) (firstn (T0 + t) xs) = states d st x t).
  { induction t as [|t IH]; intros Ht; [rewrite Nat.add_0_r; reflexivity|].
    rewrite Nat.add_succ_r, (BaseLemmas.firstn_S_nth xs (T0 + t) 0) by lia. rewrite final_snoc, IH by lia. rewrite Hn by lia. reflexivity. }
  set (r := fun t => states d st x t - p2 d). set (o := fun t => snd (fsurelu_step d (states d st x t) (x t))).
  assert (Ho : forall t, (T0 + t < length (outs (fsurelu_step d) (fsurelu_init d) xs))%nat -> nth (T0 + t) (outs (fsurelu_step d) (fsurelu_init d) xs) 0 = o t).
  { intros t Ht. rewrite outs_length in Ht. rewrite (outs_nth _ _ _ _ 0 0) by exact Ht. rewrite Hs by lia. rewrite Hn by lia. reflexivity. }
  pose proof (p2_pos d) as PP. pose proof (p2_S d) as PS.
  assert (EP : p2 d = Z.of_nat (2 ^ d)) by (unfold p2; rewrite Nat2Z.inj_pow; reflexivity).
  assert (H0 : -1 <= r 0%nat <= p2 d - 1).
  { unfold r. cbn [states]. pose proof (relu_inv d (firstn T0 xs) (BaseLemmas.Forall_firstn _ _ _ Hb)) as I. fold st in I. lia. }
  assert (Hf : forall t, r t = -1 -> r (S t) = 0 /\ o t = 1).
  { intros t E. unfold r, o in *. cbn [states]. rewrite relu_cases by apply Hx.
    destruct (states d st x t >=? p2 d) eqn:C; [lia|]. cbn [fst snd]. unfold zclamp. split; [lia|reflexivity]. }
  assert (Hp : forall t, 0 <= r t -> o t = x t /\ r (S t) = Z.min (p2 d - 1) (r t + 2 * x t - 1)).
  { intros t E. unfold r, o in *. cbn [states]. rewrite relu_cases by apply Hx.
    destruct (states d st x t >=? p2 d) eqn:C; [|lia]. cbn [fst snd]. unfold zclamp. split; [reflexivity|]. destruct (Hx t) as [-> | ->]; lia. }
  assert (Hh : Z.of_nat P < p2 d) by lia.
  pose proof (c_range (p2 d) P x r o HP Hh Hx Hper H0 Hf Hp) as Rg.
  destruct (meet (2 ^ d + 1) (fun n => Z.to_nat (r (n * P)%nat + 1))) as (a & b & Hab & E).
  { intros i _. pose proof (Rg (i * P)%nat). lia. }
  exists a, (b - a)%nat. split; [lia|]. split; [lia|].
  assert (HA : r (a * P + (b - a) * P)%nat = r (a * P)%nat).
  { replace (a * P + (b - a) * P)%nat with (b * P)%nat by nia. pose proof (Rg (a * P)%nat). pose proof (Rg (b * P)%nat). lia. }
  set (j := (b - a)%nat) in *. assert (Hj : (1 <= j)%nat) by lia. clearbody j. clear E Hab b.
  pose proof (c_count (p2 d) P x r o HP Hh Hx Hper H0 Hf Hp (a * P) j Hj HA) as C.
  pose proof (c_out (p2 d) P x r o HP Hh Hx Hper H0 Hf Hp (a * P) j Hj HA) as Co.
  destruct (repeats_grows Bipolar T0 P v xs Hb HP HL R) as (K & HV & G).
  assert (EK : acc x P = K).
  { specialize (G T0 (le_n _) HL). cbn beta in G. rewrite (ones_acc xs T0 x P Hb HL Hn) in G. lia. }
  assert (EW : forall n, acc (fun t => 2 * x t - 1) n = 2 * acc x n - Z.of_nat n).
  { induction n as [|n IH]; [reflexivity|]. cbn [acc]. rewrite IH. lia. }
  rewrite EW, EK in C.
  apply (grows_repeats Bipolar _ _ _ _ (acc o (a * P + j * P) - acc o (a * P))).
  - apply relu_bits, Hb.
  - nia.
  - intros t Ht Hl. replace t with (T0 + (t - T0))%nat in * by lia. set (n := (t - T0)%nat) in *. clearbody n.
    rewrite <- Nat.add_assoc in *. pose proof (relu_bits d xs (fsurelu_init d) Hb) as Bo.
    rewrite !(ones_acc _ T0 o) by (try assumption; lia). pose proof (acc_over o (a * P) (j * P) n ltac:(lia) Co). lia.
  - set (D := acc o (a * P + j * P) - acc o (a * P)) in *. clearbody D.
    assert (PQ : (0 < inject_Z (Z.of_nat P))%Q) by (apply inj_pos; lia). assert (JQ : (0 < inject_Z (Z.of_nat j))%Q) by (apply inj_pos; lia).
    unfold of_prob in *. rewrite Nat2Z.inj_mul in *.
    unfold pos_part. destruct (Qle_bool 0 v) eqn:B.
    + apply Qle_bool_iff in B. rewrite <- HV in B |- *.
      assert (KP : Z.of_nat P <= 2 * K).
      { apply inject_Z_le_iff. rewrite inject_Z_mult. change (inject_Z 2) with 2%Q.
        set (p := inject_Z (Z.of_nat P)) in *. set (k := inject_Z K) in *.
        assert (X : (2 * k - p == (2 * (k / p) - 1) * p)%Q) by (field; lra). assert (0 <= (2 * (k / p) - 1) * p)%Q by (apply Qmult_le_0_compat; lra). lra. }
      assert (DE : D = Z.of_nat j * K) by nia. rewrite DE, !inject_Z_mult. field. split; lra.
    + assert (B' : (v < 0)%Q) by (apply Qnot_le_lt; intros X; apply Qle_bool_iff in X; congruence). rewrite <- HV in B'.
      assert (KP : 2 * K <= Z.of_nat P).
      { apply inject_Z_le_iff. rewrite inject_Z_mult. change (inject_Z 2) with 2%Q.
        set (p := inject_Z (Z.of_nat P)) in *. set (k := inject_Z K) in *.
        assert (X : (p - 2 * k == (1 - 2 * (k / p)) * p)%Q) by (field; lra). assert (0 <= (1 - 2 * (k / p)) * p)%Q by (apply Qmult_le_0_compat; lra). lra. }
      assert (DE : 2 * D = Z.of_nat j * Z.of_nat P) by nia.
      assert (X : (2 * inject_Z D == inject_Z (Z.of_nat j) * inject_Z (Z.of_nat P))%Q) by (rewrite <- inject_Z_mult, <- DE, inject_Z_mult; reflexivity).
      rewrite inject_Z_mult, <- X. assert (0 < 2 * inject_Z D)%Q by (rewrite X; apply Qmult_lt_0_compat; assumption). field. lra.
Qed.
