(** Proofs about the multipliers gMUL, dMUL and tMUL. *)
Require Import Verif.BaseLemmas Verif.GenModel Verif.RtlMoreModel Verif.RtlMoreSpec.
Require Import Verif.GenProof Verif.SobolProof Verif.KernelProof Verif.HubProof Verif.RtlProof Verif.RtlRngProof Verif.RtlCountProof.
Open Scope Z_scope.

Definition sob_st (w k : nat) : Z * Z := (Z.of_nat (k mod 2 ^ w), sob_at w k).
Lemma ones_repeat1 k : ones (repeat 1 k) = Z.of_nat k.
Proof. induction k as [|k IH]; [reflexivity|]. cbn [repeat]. rewrite ones_cons, IH. cbn [Z.eqb Pos.eqb]. lia. Qed.
Lemma bits_repeat1 k : bits (repeat 1 k).
Proof. apply Forall_forall. intros x Hx. apply repeat_spec in Hx. right. exact Hx. Qed.
Lemma rng_after_st w k : (1 <= w)%nat -> rng_after w k = sob_st w k.
Proof.
  intros Hw. unfold rng_after. rewrite sobol_rtl_final by (try exact Hw; apply bits_repeat1).
  unfold ncnt. rewrite ones_repeat1, Nat2Z.id. reflexivity.
Qed.
Lemma sob_st_0 w : (1 <= w)%nat -> sob_st w 0 = sobol_rtl_init.
Proof. intros Hw. rewrite <- rng_after_st by exact Hw. reflexivity. Qed.
Lemma sobol_en w k : (1 <= w)%nat -> sobol_rtl w (sob_st w k) 1 = (sob_st w (S k), sob_at w k).
Proof.
  intros Hw. rewrite (surjective_pairing (sobol_rtl w (sob_st w k) 1)). f_equal.
  rewrite <- !rng_after_st by exact Hw. unfold rng_after.
  replace (repeat 1 (S k)) with (repeat 1 k ++ [1]); [rewrite final_snoc; reflexivity|].
  clear. induction k as [|k IH]; [reflexivity|]. cbn [repeat app]. rewrite IH. reflexivity.
Qed.
Lemma sobol_dis w k : (1 <= w)%nat -> sobol_rtl w (sob_st w k) 0 = (sob_st w k, sob_at w k).
Proof.
  intros Hw. unfold sobol_rtl, sob_st. cbn [Z.eqb]. rewrite Z.add_0_r, trunc_id; [reflexivity|].
  pose proof (Nat.mod_upper_bound k (2 ^ w) (Nat.pow_nonzero 2 w ltac:(lia))). rewrite <- p2_nat. lia.
Qed.
Lemma free_run_at w k : (1 <= w)%nat -> free_run w k = sob_at w k.
Proof.
  intros Hw. unfold free_run. rewrite sobol_rtl_nth; [|exact Hw|apply bits_repeat1|rewrite repeat_length; lia].
  rewrite firstn_repeat' by lia. unfold ncnt. rewrite ones_repeat1, Nat2Z.id. reflexivity.
Qed.
Lemma free_run_period w p B : (1 <= w)%nat -> 0 <= B <= p2 w ->
  countb (fun i => free_run w (p * 2 ^ w + i) <? B) (seq 0 (2 ^ w)) = B.
Proof.
  intros Hw HB. rewrite <- (countb_map (fun v => v <? B) (fun i => free_run w (p * 2 ^ w + i))).
  rewrite (map_ext _ (fun i => sob_at w (p * 2 ^ w + i))) by (intros; apply free_run_at, Hw).
  rewrite (BaseLemmas.countb_perm _ _ _ (sob_at_period w p Hw)), countb_lt_zrange, p2_nat. unfold zclamp. lia.
Qed.

Lemma outs_window {S I} (step : S -> I -> S * Z) (P : I -> Prop) (st : nat -> S) (f : nat -> Z) :
  (forall k x, P x -> step (st k) x = (st (Datatypes.S k), f k)) ->
  forall h k, Forall P h -> outs step (st k) h = map (fun i => f (k + i)%nat) (seq 0 (length h)) /\ final step (st k) h = st (k + length h)%nat.
Proof.
  intros H. induction h as [|x h IH]; intros k Hh; [split; [reflexivity|rewrite Nat.add_0_r; reflexivity]|].
  rewrite outs_cons, final_cons, (H k x (Forall_inv Hh)). cbn [fst snd length seq map].
  destruct (IH (Datatypes.S k) (Forall_inv_tail Hh)) as [-> ->]. rewrite Nat.add_0_r. split; [|f_equal; lia].
  f_equal. rewrite <- seq_shift, map_map. apply map_ext. intros i. f_equal. lia.
Qed.

(** ** gMUL *)
Lemma min_gt a b s : Z.land (b2z (a >? s)) (b2z (b >? s)) = b2z (s <? Z.min a b).
Proof. unfold b2z. destruct (Z.gtb_spec a s), (Z.gtb_spec b s), (Z.ltb_spec s (Z.min a b)); cbn [Z.land Pos.land]; lia. Qed.
Lemma xnor_gt a b s : bnot (Z.lxor (b2z (a >? s)) (b2z (b >? s))) = b2z (Bool.eqb (s <? a) (s <? b)).
Proof.
  rewrite !Z.gtb_ltb. destruct (s <? a), (s <? b); reflexivity.
Qed.
Lemma no_load_keep l i v : l = 0 -> mul_load l i v = v.
Proof. intros ->. reflexivity. Qed.

Lemma gmul_uni_at w A B k x : (1 <= w)%nat -> gmul_uni w ((A, B), (sob_st w k, sob_st w k)) x =
  (((if snd (port_a x) =? 1 then fst (port_a x) else A, if snd (port_b x) =? 1 then fst (port_b x) else B), (sob_st w (S k), sob_st w (S k))),
   b2z (free_run w k <? Z.min A B)).
Proof.
  intros Hw. destruct x as [[[iA iB] la] lb]. unfold gmul_uni. rewrite sobol_en by exact Hw. cbn [port_a port_b fst snd].
  rewrite min_gt, <- free_run_at by exact Hw. reflexivity.
Qed.
Lemma gmul_bi_at w A B k x : (1 <= w)%nat -> gmul_bi w ((A, B), (sob_st w k, sob_st w k)) x =
  (((if snd (port_a x) =? 1 then fst (port_a x) else A, if snd (port_b x) =? 1 then fst (port_b x) else B), (sob_st w (S k), sob_st w (S k))),
   b2z (Bool.eqb (free_run w k <? A) (free_run w k <? B))).
Proof.
  intros Hw. destruct x as [[[iA iB] la] lb]. unfold gmul_bi. rewrite sobol_en by exact Hw. cbn [port_a port_b fst snd].
  rewrite xnor_gt, <- free_run_at by exact Hw. reflexivity.
Qed.
Lemma latched_snoc l p : latched (l ++ [p]) = if snd p =? 1 then fst p else latched l.
Proof. unfold latched. rewrite fold_left_app. reflexivity. Qed.
Lemma gmul_state w h : (1 <= w)%nat ->
  final (gmul_uni w) gmul_init h = ((latched (map port_a h), latched (map port_b h)), (sob_st w (length h), sob_st w (length h))) /\
  final (gmul_bi w) gmul_init h = ((latched (map port_a h), latched (map port_b h)), (sob_st w (length h), sob_st w (length h))).
Proof.
  intros Hw. induction h as [|x h [IH1 IH2]] using rev_ind.
  - cbn [length map]. rewrite sob_st_0 by exact Hw. split; reflexivity.
  - rewrite !final_snoc, IH1, IH2, gmul_uni_at, gmul_bi_at by exact Hw. cbn [fst].
    rewrite !map_app. cbn [map]. rewrite !latched_snoc, app_length. cbn [length]. rewrite Nat.add_1_r. split; reflexivity.
Qed.
Lemma gmul_uni_nth w h t : (1 <= w)%nat -> (t < length h)%nat ->
  nth t (outs (gmul_uni w) gmul_init h) 0 =
  b2z (free_run w t <? Z.min (latched (map port_a (firstn t h))) (latched (map port_b (firstn t h)))).
Proof.
  intros Hw Ht. rewrite (outs_nth _ _ h t (0, 0, 0, 0) 0 Ht). destruct (gmul_state w (firstn t h) Hw) as [-> _].
  rewrite gmul_uni_at by exact Hw. rewrite firstn_length_le by lia. reflexivity.
Qed.
Lemma gmul_bi_nth w h t : (1 <= w)%nat -> (t < length h)%nat ->
  nth t (outs (gmul_bi w) gmul_init h) 0 =
  b2z (Bool.eqb (free_run w t <? latched (map port_a (firstn t h))) (free_run w t <? latched (map port_b (firstn t h)))).
Proof.
  intros Hw Ht. rewrite (outs_nth _ _ h t (0, 0, 0, 0) 0 Ht). destruct (gmul_state w (firstn t h) Hw) as [_ ->].
  rewrite gmul_bi_at by exact Hw. rewrite firstn_length_le by lia. reflexivity.
Qed.

Lemma gmul_uni_outs w A B k h : (1 <= w)%nat -> Forall no_load h ->
  outs (gmul_uni w) ((A, B), (rng_after w k, rng_after w k)) h = map (fun i => b2z (free_run w (k + i) <? Z.min A B)) (seq 0 (length h)).
Proof.
  intros Hw Hh. rewrite rng_after_st by exact Hw.
  apply (outs_window (gmul_uni w) no_load (fun k => ((A, B), (sob_st w k, sob_st w k))) (fun k => b2z (free_run w k <? Z.min A B))); [|exact Hh].
  intros k' x [Ha Hb]. rewrite gmul_uni_at by exact Hw. rewrite Ha, Hb. reflexivity.
Qed.
Lemma gmul_bi_outs w A B k h : (1 <= w)%nat -> Forall no_load h ->
  outs (gmul_bi w) ((A, B), (rng_after w k, rng_after w k)) h =
  map (fun i => b2z (Bool.eqb (free_run w (k + i) <? A) (free_run w (k + i) <? B))) (seq 0 (length h)).
Proof.
  intros Hw Hh. rewrite rng_after_st by exact Hw.
  apply (outs_window (gmul_bi w) no_load (fun k => ((A, B), (sob_st w k, sob_st w k)))
    (fun k => b2z (Bool.eqb (free_run w k <? A) (free_run w k <? B)))); [|exact Hh].
  intros k' x [Ha Hb]. rewrite gmul_bi_at by exact Hw. rewrite Ha, Hb. reflexivity.
Qed.
Lemma gmul_uni_period w A B p h : (1 <= w)%nat -> 0 <= A <= p2 w -> 0 <= B <= p2 w -> Forall no_load h -> length h = (2 ^ w)%nat ->
  ones (outs (gmul_uni w) ((A, B), (rng_after w (p * 2 ^ w), rng_after w (p * 2 ^ w))) h) = Z.min A B.
Proof.
  intros Hw HA HB Hh Hl. rewrite gmul_uni_outs by assumption. rewrite Hl, ones_map_b2z. apply free_run_period; [exact Hw|lia].
Qed.
Lemma eqb_count {A} (f g : A -> bool) l : (forall x, In x l -> f x = true -> g x = true) ->
  countb (fun x => Bool.eqb (f x) (g x)) l = zlen l - (countb g l - countb f l).
Proof.
  induction l as [|x l IH]; intros H; [reflexivity|]. cbn [countb]. rewrite IH by (intros; apply H; [right|]; assumption).
  pose proof (H x (or_introl eq_refl)). unfold zlen. cbn [length]. destruct (f x), (g x); cbn [Bool.eqb]; lia.
Qed.
Lemma eqb_count_range w p A B : (1 <= w)%nat -> 0 <= A <= B -> B <= p2 w ->
  countb (fun i => Bool.eqb (free_run w (p * 2 ^ w + i) <? A) (free_run w (p * 2 ^ w + i) <? B)) (seq 0 (2 ^ w)) = p2 w - (B - A).
Proof.
  intros Hw HA HB. rewrite eqb_count by (intros; lia). rewrite !free_run_period by (try exact Hw; lia).
  unfold zlen. rewrite seq_length, p2_nat. lia.
Qed.
Lemma gmul_bi_period w A B p h : (1 <= w)%nat -> 0 <= A <= p2 w -> 0 <= B <= p2 w -> Forall no_load h -> length h = (2 ^ w)%nat ->
  ones (outs (gmul_bi w) ((A, B), (rng_after w (p * 2 ^ w), rng_after w (p * 2 ^ w))) h) = p2 w - Z.abs (A - B).
Proof.
  intros Hw HA HB Hh Hl. rewrite gmul_bi_outs by assumption. rewrite Hl, ones_map_b2z.
  destruct (Z.le_gt_cases A B) as [L|L].
  - rewrite eqb_count_range by (try exact Hw; lia). lia.
  - rewrite (countb_ext _ (fun i => Bool.eqb (free_run w (p * 2 ^ w + i) <? B) (free_run w (p * 2 ^ w + i) <? A))).
    + rewrite eqb_count_range by (try exact Hw; lia). lia.
    + intros i _. destruct (free_run w _ <? A), (free_run w _ <? B); reflexivity.
Qed.

(** ** dMUL *)
Definition dmul_st (w : nat) (A B : Z) (k : nat) : (Z * Z) * mul_regs :=
  ((Z.of_nat (k mod 2 ^ w), Z.of_nat (k / 2 ^ w)), ((A, B), (sob_st w k, sob_st w 0))).
Lemma dmul_counters w k : (1 <= w)%nat -> (k < (2 ^ w - 1) * 2 ^ w)%nat ->
  trunc w (Z.of_nat (k mod 2 ^ w) + 1) = Z.of_nat (S k mod 2 ^ w) /\
  trunc w (Z.of_nat (k / 2 ^ w) + b2z (red_and w (Z.of_nat (k mod 2 ^ w)))) = Z.of_nat (S k / 2 ^ w) /\
  red_and w (Z.of_nat (k / 2 ^ w)) = false.
Proof.
  intros Hw Hk. pose proof (Nat.pow_nonzero 2 w ltac:(lia)) as Hn. pose proof (p2_nat w) as Ep.
  set (n := (2 ^ w)%nat) in *. pose proof (Nat.mod_upper_bound k n Hn) as Hm.
  assert (Hd : (k / n < n - 1)%nat) by (apply Nat.div_lt_upper_bound; [exact Hn|nia]).
  pose proof (Nat.div_mod k n Hn) as Ed. set (m := (k mod n)%nat) in *. set (q := (k / n)%nat) in *.
  unfold red_and. rewrite <- Ep. split; [|split; [|lia]].
  - unfold trunc. rewrite <- Ep. replace (Z.of_nat m + 1) with (Z.of_nat (m + 1)) by lia. rewrite <- Nat2Z.inj_mod. f_equal.
    unfold m. rewrite Nat.add_mod_idemp_l by exact Hn. f_equal. lia.
  - destruct (Z.eqb_spec (Z.of_nat m) (Z.of_nat n - 1)) as [E|E]; cbn [b2z].
    + rewrite trunc_id by (rewrite <- Ep; lia).
      rewrite <- (Nat.div_unique (S k) n (S q) 0); lia.
    + rewrite trunc_id by (rewrite <- Ep; lia). rewrite <- (Nat.div_unique (S k) n q (S m)); lia.
Qed.
Lemma sob_at_0 w : (1 <= w)%nat -> sob_at w 0 = 0.
Proof. intros Hw. pose proof (sob_st_0 w Hw) as H. unfold sob_st, sobol_rtl_init in H. congruence. Qed.
Lemma dmul_uni_at w A B k x : (1 <= w)%nat -> (k < (2 ^ w - 1) * 2 ^ w)%nat -> no_load x ->
  dmul_uni w (dmul_st w A B k) x = (dmul_st w A B (S k), Z.land (b2z (free_run w k <? A)) (b2z (0 <? B))).
Proof.
  intros Hw Hk Hx. destruct x as [[[iA iB] la] lb]. destruct Hx as [Ha Hb]. cbn [port_a port_b snd] in Ha, Hb. subst la lb.
  destruct (dmul_counters w k Hw Hk) as (E1 & E2 & E3). unfold dmul_uni, dmul_st. rewrite E3. cbn [b2z].
  rewrite sobol_en, sobol_dis by exact Hw. rewrite E1, E2, (sob_at_0 w Hw), <- (free_run_at w k Hw), !Z.gtb_ltb. reflexivity.
Qed.
Lemma dmul_bi_at w A B k x : (1 <= w)%nat -> (k < (2 ^ w - 1) * 2 ^ w)%nat -> no_load x ->
  dmul_bi w (dmul_st w A B k) x = (dmul_st w A B (S k), b2z (Bool.eqb (free_run w k <? A) (0 <? B))).
Proof.
  intros Hw Hk Hx. destruct x as [[[iA iB] la] lb]. destruct Hx as [Ha Hb]. cbn [port_a port_b snd] in Ha, Hb. subst la lb.
  destruct (dmul_counters w k Hw Hk) as (E1 & E2 & E3). unfold dmul_bi, dmul_st. rewrite E3. cbn [b2z].
  rewrite sobol_en, sobol_dis by exact Hw. rewrite E1, E2, (sob_at_0 w Hw), <- (free_run_at w k Hw), !Z.gtb_ltb.
  destruct (free_run w k <? A), (0 <? B); reflexivity.
Qed.
Lemma dmul_start w A B : (1 <= w)%nat -> dmul_st w A B 0 = ((0, 0), ((A, B), (sobol_rtl_init, sobol_rtl_init))).
Proof.
  intros Hw. unfold dmul_st. rewrite sob_st_0 by exact Hw. pose proof (Nat.pow_nonzero 2 w ltac:(lia)).
  rewrite Nat.mod_0_l, Nat.div_0_l by assumption. reflexivity.
Qed.
Lemma outs_window_upto {S I} (step : S -> I -> S * Z) (P : I -> Prop) (st : nat -> S) (f : nat -> Z) (N : nat) :
  (forall k x, (k < N)%nat -> P x -> step (st k) x = (st (Datatypes.S k), f k)) ->
  forall h k, (k + length h <= N)%nat -> Forall P h -> outs step (st k) h = map (fun i => f (k + i)%nat) (seq 0 (length h)).
Proof.
  intros H. induction h as [|x h IH]; intros k Hk Hh; [reflexivity|]. cbn [length] in Hk.
  rewrite outs_cons, (H k x ltac:(lia) (Forall_inv Hh)). cbn [fst snd length seq map].
  rewrite (IH (Datatypes.S k) ltac:(lia) (Forall_inv_tail Hh)). rewrite Nat.add_0_r.
  f_equal. rewrite <- seq_shift, map_map. apply map_ext. intros i. f_equal. lia.
Qed.
Lemma dmul_uni_outs w A B h : (1 <= w)%nat -> Forall no_load h -> (length h <= (2 ^ w - 1) * 2 ^ w)%nat ->
  outs (dmul_uni w) ((0, 0), ((A, B), (sobol_rtl_init, sobol_rtl_init))) h =
  map (fun k => Z.land (b2z (free_run w k <? A)) (b2z (0 <? B))) (seq 0 (length h)).
Proof.
  intros Hw Hh Hl. rewrite <- (dmul_start w A B Hw).
  apply (outs_window_upto (dmul_uni w) no_load (dmul_st w A B) (fun k => Z.land (b2z (free_run w k <? A)) (b2z (0 <? B))) ((2 ^ w - 1) * 2 ^ w));
    [|exact Hl|exact Hh]. intros k x Hk Hx. apply dmul_uni_at; assumption.
Qed.
Lemma dmul_bi_outs w A B h : (1 <= w)%nat -> Forall no_load h -> (length h <= (2 ^ w - 1) * 2 ^ w)%nat ->
  outs (dmul_bi w) ((0, 0), ((A, B), (sobol_rtl_init, sobol_rtl_init))) h =
  map (fun k => b2z (Bool.eqb (free_run w k <? A) (0 <? B))) (seq 0 (length h)).
Proof.
  intros Hw Hh Hl. rewrite <- (dmul_start w A B Hw).
  apply (outs_window_upto (dmul_bi w) no_load (dmul_st w A B) (fun k => b2z (Bool.eqb (free_run w k <? A) (0 <? B))) ((2 ^ w - 1) * 2 ^ w));
    [|exact Hl|exact Hh]. intros k x Hk Hx. apply dmul_bi_at; assumption.
Qed.
Lemma free_run_periods w A K : (1 <= w)%nat -> 0 <= A <= p2 w ->
  countb (fun k => free_run w k <? A) (seq 0 (K * 2 ^ w)) = Z.of_nat K * A.
Proof.
  intros Hw HA. induction K as [|K IH]; [reflexivity|].
  replace (S K * 2 ^ w)%nat with (K * 2 ^ w + 2 ^ w)%nat by lia. rewrite seq_app, countb_app, IH. cbn [Nat.add].
  rewrite countb_seq_offset, free_run_period by (try exact Hw; lia). lia.
Qed.
Lemma dmul_uni_count w A B K h : (1 <= w)%nat -> 0 <= A <= p2 w -> Forall no_load h -> (K <= 2 ^ w - 1)%nat -> length h = (K * 2 ^ w)%nat ->
  ones (outs (dmul_uni w) ((0, 0), ((A, B), (sobol_rtl_init, sobol_rtl_init))) h) = if 0 <? B then Z.of_nat K * A else 0.
Proof.
  intros Hw HA Hh HK Hl. rewrite dmul_uni_outs by (try assumption; rewrite Hl; apply Nat.mul_le_mono_r; exact HK). rewrite Hl.
  destruct (0 <? B); cbn [b2z].
  - rewrite (map_ext _ (fun k => b2z (free_run w k <? A))) by (intros k; destruct (free_run w k <? A); reflexivity).
    rewrite ones_map_b2z. apply free_run_periods; assumption.
  - rewrite (map_ext _ (fun k => b2z false)) by (intros k; rewrite Z.land_0_r; reflexivity).
    rewrite (ones_map_b2z (fun _ : nat => false)). apply countb_false. reflexivity.
Qed.

(** ** tMUL *)
Lemma tmul_uni_at w bufA stop B k x : (1 <= w)%nat -> bit stop -> 0 <= bufA < p2 w -> no_load x ->
  tmul_uni w ((bufA, stop, B), sob_st w k) x =
  (((if bufA =? 0 then 0 else bufA - 1, if bufA =? 0 then 1 else 0, B), sob_st w (if stop =? 0 then S k else k)),
   (if stop =? 0 then b2z (free_run w k <? B) else 0, stop)).
Proof.
  intros Hw Hs HA Hx. destruct x as [[[iA iB] la] lb]. destruct Hx as [Ha Hb]. cbn [port_a port_b snd] in Ha, Hb. subst la lb.
  unfold tmul_uni, tmul_count, mul_load, bnot. cbn [Z.eqb].
  assert (E : (if negb (bufA =? 0) then (trunc w (bufA - 1), 0) else (bufA, 1)) = (if bufA =? 0 then 0 else bufA - 1, if bufA =? 0 then 1 else 0)).
  { destruct (Z.eqb_spec bufA 0) as [->|]; cbn [negb]; [reflexivity|]. rewrite trunc_id by lia. reflexivity. }
  rewrite E. destruct Hs as [-> | ->]; cbn [Z.sub Z.opp Z.add Z.pos_sub Z.eqb].
  - rewrite sobol_en by exact Hw. rewrite <- free_run_at, Z.gtb_ltb by exact Hw.
    destruct (free_run w k <? B); reflexivity.
  - rewrite sobol_dis by exact Hw. reflexivity.
Qed.
Lemma tmul_bi_at w bufA stop B k x : (1 <= w)%nat -> bit stop -> 0 <= bufA < p2 w -> no_load x ->
  tmul_bi w ((bufA, stop, B), sob_st w k) x =
  (((if bufA =? 0 then 0 else bufA - 1, if bufA =? 0 then 1 else 0, B), sob_st w (if stop =? 0 then S k else k)),
   (if stop =? 0 then b2z (free_run w k <? B) else b2z (B <=? free_run w k), stop)).
Proof.
  intros Hw Hs HA Hx. destruct x as [[[iA iB] la] lb]. destruct Hx as [Ha Hb]. cbn [port_a port_b snd] in Ha, Hb. subst la lb.
  unfold tmul_bi, tmul_count, mul_load, bnot. cbn [Z.eqb].
  assert (E : (if negb (bufA =? 0) then (trunc w (bufA - 1), 0) else (bufA, 1)) = (if bufA =? 0 then 0 else bufA - 1, if bufA =? 0 then 1 else 0)).
  { destruct (Z.eqb_spec bufA 0) as [->|]; cbn [negb]; [reflexivity|]. rewrite trunc_id by lia. reflexivity. }
  rewrite E. destruct Hs as [-> | ->]; cbn [Z.sub Z.opp Z.add Z.pos_sub Z.eqb].
  - rewrite sobol_en by exact Hw. rewrite <- free_run_at, Z.gtb_ltb by exact Hw.
    destruct (free_run w k <? B); reflexivity.
  - rewrite sobol_dis by exact Hw. rewrite <- free_run_at, Z.gtb_ltb, Z.leb_antisym by exact Hw.
    destruct (free_run w k <? B); reflexivity.
Qed.

Section Temporal.
  Variables (w : nat) (B : Z) (step : tmul_regs -> mul_in -> tmul_regs * (Z * Z)) (idle : nat -> Z).
  Hypothesis Hw : (1 <= w)%nat.
  Hypothesis Hstep : forall bufA stop k x, bit stop -> 0 <= bufA < p2 w -> no_load x ->
    step ((bufA, stop, B), sob_st w k) x =
    (((if bufA =? 0 then 0 else bufA - 1, if bufA =? 0 then 1 else 0, B), sob_st w (if stop =? 0 then S k else k)),
     (if stop =? 0 then b2z (free_run w k <? B) else idle k, stop)).
  Lemma temporal_idle k h : Forall no_load h ->
    outs step ((0, 1, B), sob_st w k) h = repeat (idle k, 1) (length h) /\ final step ((0, 1, B), sob_st w k) h = ((0, 1, B), sob_st w k).
  Proof.
    pose proof (p2_pos w). induction h as [|x h IH]; intros Hh; [split; reflexivity|].
    rewrite outs_cons, final_cons, Hstep by (try exact (Forall_inv Hh); try lia; right; reflexivity).
    cbn [fst snd Z.eqb length repeat]. destruct (IH (Forall_inv_tail Hh)) as [-> ->]. split; reflexivity.
  Qed.
  Lemma temporal_run m : forall a k h, Forall no_load h -> Z.of_nat a < p2 w -> length h = (S a + m)%nat ->
    outs step ((Z.of_nat a, 0, B), sob_st w k) h =
      map (fun i => (b2z (free_run w (k + i) <? B), 0)) (seq 0 (S a)) ++ repeat (idle (k + S a)%nat, 1) m /\
    final step ((Z.of_nat a, 0, B), sob_st w k) h = ((0, 1, B), sob_st w (k + S a)).
  Proof.
    induction a as [|a IH]; intros k [|x h] Hh Ha Hl; try discriminate.
    - rewrite outs_cons, final_cons, Hstep by (try exact (Forall_inv Hh); try lia; left; reflexivity).
      cbn [fst snd Z.eqb Z.of_nat]. destruct (temporal_idle (S k) h (Forall_inv_tail Hh)) as [-> ->].
      cbn [seq map app]. rewrite Nat.add_0_r, Nat.add_1_r. cbn [length] in Hl. replace (length h) with m by lia. split; reflexivity.
    - rewrite outs_cons, final_cons, Hstep by (try exact (Forall_inv Hh); try lia; left; reflexivity).
      destruct (Z.eqb_spec (Z.of_nat (S a)) 0); [lia|]. replace (Z.of_nat (S a) - 1) with (Z.of_nat a) by lia. cbn [fst snd Z.eqb].
      cbn [length] in Hl. destruct (IH (S k) h (Forall_inv_tail Hh) ltac:(lia) ltac:(lia)) as [-> ->].
      split; [|do 2 f_equal; lia]. change (seq 0 (S (S a))) with (0%nat :: seq 1 (S a)). cbn [map app]. rewrite Nat.add_0_r. f_equal.
      f_equal; [rewrite <- seq_shift, map_map; apply map_ext; intros i; do 4 f_equal; lia|].
      replace (S k + S a)%nat with (k + S (S a))%nat by lia. reflexivity.
  Qed.
  (** From the clock after a load of A. *)
  Lemma temporal_loaded A m k h : Forall no_load h -> 0 <= A < p2 w -> length h = (S (Z.to_nat A) + m)%nat ->
    outs step ((A, 1, B), sob_st w k) h =
      (idle k, 1) :: map (fun i => (b2z (free_run w (k + i) <? B), 0)) (seq 0 (Z.to_nat A)) ++ repeat (idle (k + Z.to_nat A)%nat, 1) m /\
    final step ((A, 1, B), sob_st w k) h = ((0, 1, B), sob_st w (k + Z.to_nat A)).
  Proof.
    intros Hh HA Hl. destruct h as [|x h]; [discriminate|]. cbn [length] in Hl.
    rewrite outs_cons, final_cons, Hstep by (try exact (Forall_inv Hh); try lia; right; reflexivity). cbn [fst snd Z.eqb Pos.eqb].
    destruct (Z.eqb_spec A 0) as [->|Hn].
    - destruct (temporal_idle k h (Forall_inv_tail Hh)) as [-> ->]. cbn [Z.to_nat seq map app] in *. rewrite Nat.add_0_r.
      replace (length h) with m by lia. split; reflexivity.
    - replace (A - 1) with (Z.of_nat (Z.to_nat A - 1)) by lia.
      destruct (temporal_run m (Z.to_nat A - 1) k h (Forall_inv_tail Hh) ltac:(lia) ltac:(lia)) as [-> ->].
      replace (S (Z.to_nat A - 1)) with (Z.to_nat A) by lia. split; reflexivity.
  Qed.
End Temporal.

Lemma tmul_uni_product w A B B0 k m h : (1 <= w)%nat -> 0 <= A < p2 w -> Forall no_load h -> length h = (S (Z.to_nat A) + m)%nat ->
  let st := ((0, 1, B0), rng_after w k) in
  outs (tmul_uni w) st (tmul_load_in A B :: h) =
    (0, 1) :: (0, 1) :: map (fun i => (b2z (free_run w (k + i) <? B), 0)) (seq 0 (Z.to_nat A)) ++ repeat (0, 1) m /\
  final (tmul_uni w) st (tmul_load_in A B :: h) = ((0, 1, B), rng_after w (k + Z.to_nat A)).
Proof.
  intros Hw HA Hh Hl. cbv zeta. rewrite !rng_after_st by exact Hw.
  assert (E : tmul_uni w ((0, 1, B0), sob_st w k) (tmul_load_in A B) = (((A, 1, B), sob_st w k), (0, 1))).
  { unfold tmul_uni, tmul_load_in, tmul_count, mul_load, bnot. cbn [Z.sub Z.opp Z.add Z.pos_sub Z.eqb Pos.eqb].
    rewrite sobol_dis by exact Hw. reflexivity. }
  rewrite outs_cons, final_cons, E. cbn [fst snd].
  destruct (temporal_loaded w B (tmul_uni w) (fun _ => 0) Hw
    (fun bufA stop k x Hs Hb Hx => tmul_uni_at w bufA stop B k x Hw Hs Hb Hx) A m k h Hh HA Hl) as [-> ->].
  split; reflexivity.
Qed.
Lemma tmul_bi_product w A B B0 k m h : (1 <= w)%nat -> 0 <= A < p2 w -> Forall no_load h -> length h = (S (Z.to_nat A) + m)%nat ->
  let st := ((0, 1, B0), rng_after w k) in
  outs (tmul_bi w) st (tmul_load_in A B :: h) =
    (b2z (B0 <=? free_run w k), 1) :: (b2z (B <=? free_run w k), 1) ::
    map (fun i => (b2z (free_run w (k + i) <? B), 0)) (seq 0 (Z.to_nat A)) ++ repeat (b2z (B <=? free_run w (k + Z.to_nat A)), 1) m /\
  final (tmul_bi w) st (tmul_load_in A B :: h) = ((0, 1, B), rng_after w (k + Z.to_nat A)).
Proof.
  intros Hw HA Hh Hl. cbv zeta. rewrite !rng_after_st by exact Hw.
  assert (E : tmul_bi w ((0, 1, B0), sob_st w k) (tmul_load_in A B) = (((A, 1, B), sob_st w k), (b2z (B0 <=? free_run w k), 1))).
  { unfold tmul_bi, tmul_load_in, tmul_count, mul_load, bnot. cbn [Z.sub Z.opp Z.add Z.pos_sub Z.eqb Pos.eqb].
    rewrite sobol_dis by exact Hw. rewrite <- free_run_at, Z.gtb_ltb, Z.leb_antisym by exact Hw.
    destruct (free_run w k <? B0); reflexivity. }
  rewrite outs_cons, final_cons, E. cbn [fst snd].
  destruct (temporal_loaded w B (tmul_bi w) (fun k => b2z (B <=? free_run w k)) Hw
    (fun bufA stop k x Hs Hb Hx => tmul_bi_at w bufA stop B k x Hw Hs Hb Hx) A m k h Hh HA Hl) as [-> ->].
  split; reflexivity.
Qed.
Lemma zero_ones n : ones (repeat 0 n) = 0.
Proof. induction n; [reflexivity|]. cbn [repeat]. rewrite ones_cons_bit by (left; reflexivity). lia. Qed.
(** The number of ones of a product from reset. *)
Lemma tmul_uni_count w A B m h : (1 <= w)%nat -> 0 <= A < p2 w -> 0 <= B <= p2 w -> Forall no_load h -> length h = (S (Z.to_nat A) + m)%nat ->
  let n := ones (map fst (outs (tmul_uni w) tmul_init (tmul_load_in A B :: h))) in
  Z.abs (n * p2 w - A * B) <= Z.of_nat w * p2 w.
Proof.
  intros Hw HA HB Hh Hl. cbv zeta.
  change tmul_init with ((0, 1, 0), rng_after w 0). destruct (tmul_uni_product w A B 0 0 m h Hw HA Hh Hl) as [-> _].
  cbn [map fst]. rewrite !ones_cons_bit by (left; reflexivity). rewrite map_app, map_map, ones_app.
  assert (E : map fst (repeat (0, 1) m) = repeat 0 m) by (clear; induction m; cbn; [reflexivity|f_equal; assumption]).
  rewrite E, zero_ones. cbn [fst Nat.add]. rewrite ones_map_b2z.
  rewrite (countb_ext _ (fun i => sobw w (dirvec_dim1 w) w i <? B)).
  - pose proof (sobw_discrepancy w (dirvec_dim1 w) (dirvec_dim1_ok w) w (le_n w) B (Z.to_nat A) HB) as H.
    rewrite Z2Nat.id in H by lia. replace (0 + (0 + _)) with (countb (fun i => sobw w (dirvec_dim1 w) w i <? B) (seq 0 (Z.to_nat A))) by lia.
    apply H. pose proof (p2_nat w). lia.
  - intros i Hi. apply in_seq in Hi. f_equal. rewrite free_run_at by exact Hw. unfold sob_at, sobw.
    pose proof (p2_nat w). rewrite Nat.mod_small, Nat.div_small by lia. unfold sob_flip. cbn [Nat.odd Nat.even negb].
    rewrite Z.lxor_0_r, Nat.sub_diag, Z.div_1_r. reflexivity.
Qed.

(** ** Wrong products *)
Lemma gmul_uni_square w p h : (2 <= w)%nat -> Forall no_load h -> length h = (2 ^ w)%nat ->
  let A := p2 (w - 1) in
  4 * (ones (outs (gmul_uni w) ((A, A), (rng_after w (p * 2 ^ w), rng_after w (p * 2 ^ w))) h) * p2 w - A * A) = p2 w * p2 w.
Proof.
  intros Hw Hh Hl A. assert (E : p2 w = 2 * A) by (unfold A; rewrite <- p2_S; f_equal; lia).
  pose proof (p2_pos (w - 1)) as HA. fold A in HA. rewrite gmul_uni_period by (try assumption; lia). rewrite Z.min_id, E. ring.
Qed.
Lemma gmul_bi_zero w p h : (1 <= w)%nat -> Forall no_load h -> length h = (2 ^ w)%nat ->
  let A := p2 (w - 1) in
  ones (outs (gmul_bi w) ((A, A), (rng_after w (p * 2 ^ w), rng_after w (p * 2 ^ w))) h) = p2 w.
Proof.
  intros Hw Hh Hl A. assert (E : p2 w = 2 * A) by (unfold A; rewrite <- p2_S; f_equal; lia).
  pose proof (p2_pos (w - 1)) as HA. fold A in HA. rewrite gmul_bi_period by (try assumption; lia). rewrite Z.sub_diag. cbn [Z.abs]. lia.
Qed.
Lemma no_load_repeat n : Forall no_load (repeat (0, 0, 0, 0) n).
Proof. apply Forall_forall. intros x Hx. apply repeat_spec in Hx. subst x. split; reflexivity. Qed.
Lemma tmul_bi_silent w m h : (1 <= w)%nat -> Forall no_load h -> length h = S m ->
  map fst (outs (tmul_bi w) tmul_init (tmul_load_in 0 (p2 (w - 1)) :: h)) = 1 :: repeat 0 (S m).
Proof.
  intros Hw Hh Hl. pose proof (p2_pos w). pose proof (p2_pos (w - 1)).
  destruct (tmul_bi_product w 0 (p2 (w - 1)) 0 0 m h Hw ltac:(lia) Hh Hl) as [E _]. cbv zeta in E.
  change (rng_after w 0) with sobol_rtl_init in E. change ((0, 1, 0), sobol_rtl_init) with tmul_init in E. rewrite E.
  rewrite !free_run_at by exact Hw. cbn [Nat.add Z.to_nat]. rewrite sob_at_0 by exact Hw. cbn [seq map app].
  destruct (Z.leb_spec (p2 (w - 1)) 0); [lia|]. cbn [b2z Z.leb]. cbn [fst map]. f_equal. cbn [repeat]. f_equal.
  clear. induction m; [reflexivity|]. cbn [repeat map fst]. f_equal. exact IHm.
Qed.
