(** * Proofs about the dMAC units (RtlMacModel.v). *)
Require Import Verif.BaseLemmas Verif.RtlMacModel Verif.RtlMacSpec.
Require Import Verif.GenProof Verif.RtlProof Verif.RtlRngProof Verif.RtlCountProof Verif.RtlMulProof.
Open Scope Z_scope.
From Verif Require Import RtlMacProof.
(** ** dMAC *)
Lemma top_eq n a : (a < n)%nat -> (Z.of_nat a =? Z.of_nat n - 1) = (a =? n - 1)%nat.
Proof. intros H. destruct (Nat.eqb_spec a (n - 1)); [apply Z.eqb_eq|apply Z.eqb_neq]; lia. Qed.
Lemma wrap_succ n t : (2 <= n)%nat ->
  (S t mod n = if (t mod n =? n - 1)%nat then 0 else S (t mod n))%nat /\
  (S t / n = t / n + (if (t mod n =? n - 1)%nat then 1 else 0))%nat.
Proof.
  intros Hn. pose proof (Nat.div_mod t n ltac:(lia)) as E. pose proof (Nat.mod_upper_bound t n ltac:(lia)) as Hr.
  destruct (Nat.eqb_spec (t mod n) (n - 1)) as [Er|Er].
  - split; [symmetry; apply (Nat.mod_unique _ n (S (t / n)) 0)|symmetry; apply (Nat.div_unique _ n _ 0)]; nia.
  - split; [symmetry; apply (Nat.mod_unique _ n (t / n) (S (t mod n)))|symmetry; apply (Nat.div_unique _ n _ (S (t mod n)))]; nia.
Qed.
Lemma trunc_succ n a : (a < n)%nat -> (Z.of_nat a + 1) mod Z.of_nat n = Z.of_nat (if (a =? n - 1)%nat then 0 else S a).
Proof.
  intros H. destruct (Nat.eqb_spec a (n - 1)) as [E|E]; [replace (Z.of_nat a + 1) with (Z.of_nat n) by lia; apply Z.mod_same; lia|].
  rewrite Z.mod_small; lia.
Qed.
Lemma slow_step w t : (1 <= w)%nat ->
  slow w (S t) = (slow w t + (if red_and w (Z.of_nat (t / 2 ^ w mod 2 ^ w)) then 1 else 0))%nat /\
  trunc w (Z.of_nat (t mod 2 ^ w) + 1) = Z.of_nat (S t mod 2 ^ w) /\
  trunc w (Z.of_nat (t / 2 ^ w mod 2 ^ w) + b2z (red_and w (Z.of_nat (t mod 2 ^ w)))) = Z.of_nat (S t / 2 ^ w mod 2 ^ w).
Proof.
  intros Hw. unfold slow, red_and, trunc. rewrite <- p2_nat.
  assert (Hn : (2 <= 2 ^ w)%nat) by (destruct w as [|w]; [lia|]; cbn [Nat.pow]; pose proof (Nat.pow_nonzero 2 w ltac:(lia)); lia).
  generalize dependent (2 ^ w)%nat. intros n Hn.
  destruct (wrap_succ n t Hn) as [R Q]. rewrite R, Q. clear R Q.
  pose proof (Nat.mod_upper_bound t n ltac:(lia)) as Hr. generalize dependent (t mod n)%nat. intros r Hr. generalize (t / n)%nat. clear t. intros q.
  rewrite (top_eq n r Hr). pose proof (Nat.mod_upper_bound q n ltac:(lia)) as Hs. rewrite (top_eq n (q mod n) Hs), trunc_succ by exact Hr.
  destruct (r =? n - 1)%nat eqn:Er; cbn [b2z].
  - rewrite Nat.add_1_r. destruct (wrap_succ n q Hn) as [R Q]. rewrite R, Q, trunc_succ by exact Hs.
    destruct (q mod n =? n - 1)%nat; cbn [b2z]; (split; [|split; reflexivity]); apply Nat.eqb_eq in Er.
    + destruct (Nat.eqb_spec 0 (n - 1)) as [X|X]; [lia|]. rewrite Nat.mul_add_distr_r. lia.
    + rewrite Nat.add_0_r. destruct (S (q mod n) =? n - 1)%nat; lia.
  - rewrite Nat.add_0_r. split; [destruct (q mod n =? n - 1)%nat; lia|]. split; [reflexivity|]. rewrite Z.add_0_r, Z.mod_small; lia.
Qed.
Lemma sobol_slow v (b : bool) k : (1 <= v)%nat ->
  sobol_rtl v (sob_st v k) (b2z b) = (sob_st v (k + (if b then 1 else 0)), free_run v k).
Proof.
  intros Hv. rewrite free_run_at by exact Hv.
  destruct b; cbn [b2z]; [rewrite sobol_en, Nat.add_1_r by exact Hv|rewrite sobol_dis, Nat.add_0_r by exact Hv]; reflexivity.
Qed.
Definition dmac_bufs (h : list (list mul_in)) (i : nat) : Z * Z := (held_a h (length h) i, held_b h (length h) i).
Lemma dmac_state w s mul h : (1 <= w)%nat -> (1 <= s)%nat ->
  (forall st x r, fst (mul st (x, r)) = (mul_load (snd (port_a x)) (fst (port_a x)) (fst st), mul_load (snd (port_b x)) (fst (port_b x)) (snd st))) ->
  rows_ok h -> let t := length h in exists out,
  final (dmac_scaled w s mul) dmac_init h =
  ((Z.of_nat (t mod 2 ^ w), Z.of_nat (t / 2 ^ w mod 2 ^ w)), (sob_st w t, sob_st w (slow w t)), map (dmac_bufs h) (seq 0 16), (sob_st s (slow w t), out)).
Proof.
  intros Hw Hs Hm. pose proof (Nat.pow_nonzero 2 w ltac:(lia)) as Hn. induction h as [|x h IH] using rev_ind; intros Hr t.
  - exists 0. unfold t. cbn [length]. unfold slow. rewrite Nat.div_0_l, Nat.mod_0_l, Nat.div_0_l, Nat.mul_0_l by exact Hn.
    replace (if (0 =? 2 ^ w - 1)%nat then 0 else 0)%nat with 0%nat by (now destruct (0 =? 2 ^ w - 1)%nat). rewrite !sob_st_0 by lia. reflexivity.
  - apply rows_snoc in Hr. destruct Hr as [Hr Hx]. destruct (IH Hr) as [out E]. rewrite final_snoc, E. unfold t. rewrite app_length. cbn [length].
    rewrite Nat.add_1_r. set (k := length h) in *. destruct (slow_step w k Hw) as (E1 & E2 & E3). rewrite E1, <- E2, <- E3.
    unfold dmac_scaled. rewrite sobol_en by exact Hw.
    rewrite (sobol_slow w _ _ Hw), (sobol_slow s _ _ Hs).
    rewrite (lanes_tab mul _ ((0, 0, 0, 0), (sob_at w k, free_run w (slow w k))) 16) by (rewrite map_length; exact Hx).
    cbn [fst]. eexists. f_equal. f_equal. apply map_ext. intros i. rewrite (map_nth (fun i => (i, (sob_at w k, free_run w (slow w k))))).
    rewrite Hm. unfold dmac_bufs. rewrite held_snoc_a, held_snoc_b. fold k. reflexivity.
Qed.
Lemma dmac_nth w s mul (bitof : Z -> Z -> Z -> Z -> Z) h t : (1 <= w)%nat -> (1 <= s <= 4)%nat ->
  (forall st x a b, mul st (x, (a, b)) =
    ((mul_load (snd (port_a x)) (fst (port_a x)) (fst st), mul_load (snd (port_b x)) (fst (port_b x)) (snd st)), bitof a b (fst st) (snd st))) ->
  rows_ok h -> (S t < length h)%nat ->
  let i := Z.to_nat (free_run s (slow w t)) in
  nth (S t) (outs (dmac_scaled w s mul) dmac_init h) 0 = bitof (free_run w t) (free_run w (slow w t)) (held_a h t i) (held_b h t i).
Proof.
  intros Hw Hs Hm Hr Ht i. rewrite (outs_nth _ _ h (S t) [] 0 Ht).
  assert (E : firstn (S t) h = firstn t h ++ [nth t h []]).
  { clear -Ht. revert t Ht. induction h as [|c h IH]; intros t Ht; [cbn in Ht; lia|]. destruct t as [|t]; [reflexivity|].
    cbn [firstn app nth]. f_equal. apply IH. cbn [length] in Ht. lia. }
  assert (Hr' : rows_ok (firstn t h)) by (apply BaseLemmas.Forall_firstn; exact Hr).
  assert (Lx : length (nth t h []) = 16%nat) by (apply (proj1 (Forall_forall _ _) Hr); apply nth_In; lia).
  destruct (dmac_state w s mul (firstn t h) Hw ltac:(lia) ltac:(intros st x [a b]; rewrite Hm; reflexivity) Hr') as [out F].
  rewrite E, final_snoc, F. rewrite firstn_length_le by lia. unfold dmac_scaled at 2. rewrite sobol_en by exact Hw.
  rewrite (sobol_slow w _ _ Hw), (sobol_slow s _ _ ltac:(lia)).
  rewrite (lanes_tab mul _ ((0, 0, 0, 0), (sob_at w t, free_run w (slow w t))) 16) by (rewrite map_length; exact Lx).
  cbn [fst]. unfold dmac_scaled. rewrite sobol_en by exact Hw.
  destruct (sobol_rtl w (sob_st w (slow w t + _)) _) as [rB' sB]. destruct (mac_lanes _ _ _) as [m' mc]. destruct (sobol_rtl s _ _) as [rS' sl].
  cbn [snd]. fold i.
  assert (Hi : (i < 16)%nat).
  { unfold i. pose proof (free_run_range s (slow w t) ltac:(lia)) as R. assert (p2 s <= p2 4) by (unfold p2; apply Z.pow_le_mono_r; lia).
    change (p2 4) with 16 in *. lia. }
  rewrite nth_tab by exact Hi. rewrite (map_nth (fun i => (i, (sob_at w t, free_run w (slow w t))))). rewrite Hm. cbn [snd fst dmac_bufs].
  unfold dmac_bufs. cbn [fst snd]. rewrite held_prefix_a, held_prefix_b by lia. rewrite <- free_run_at by exact Hw. reflexivity.
Qed.

(** The unipolar and the bipolar product. *)
Lemma dmac_mul_uni_bitof st x a b : dmac_mul_uni st (x, (a, b)) =
  ((mul_load (snd (port_a x)) (fst (port_a x)) (fst st), mul_load (snd (port_b x)) (fst (port_b x)) (snd st)),
   (fun a b A B => b2z ((a <? A) && (b <? B))) a b (fst st) (snd st)).
Proof.
  destruct st as [A B], x as [[[ia ib] la] lb]. unfold dmac_mul_uni. cbn [fst snd port_a port_b]. rewrite !Z.gtb_ltb.
  destruct (a <? A), (b <? B); reflexivity.
Qed.
Lemma dmac_mul_bi_bitof st x a b : dmac_mul_bi st (x, (a, b)) =
  ((mul_load (snd (port_a x)) (fst (port_a x)) (fst st), mul_load (snd (port_b x)) (fst (port_b x)) (snd st)),
   (fun a b A B => b2z (Bool.eqb (a <? A) (b <? B))) a b (fst st) (snd st)).
Proof.
  destruct st as [A B], x as [[[ia ib] la] lb]. unfold dmac_mul_bi. cbn [fst snd port_a port_b]. rewrite !Z.gtb_ltb.
  destruct (a <? A), (b <? B); reflexivity.
Qed.
Lemma dmac_uni_nth h t : rows_ok h -> (S t < length h)%nat ->
  let i := Z.to_nat (free_run 4 (slow 8 t)) in
  nth (S t) (outs dmac_uni_scaled dmac_init h) 0 = b2z ((free_run 8 t <? held_a h t i) && (free_run 8 (slow 8 t) <? held_b h t i)).
Proof. intros Hr Ht. exact (dmac_nth 8 4 _ _ h t ltac:(lia) ltac:(lia) dmac_mul_uni_bitof Hr Ht). Qed.
Lemma dmac_bi_nth h t : rows_ok h -> (S t < length h)%nat ->
  let i := Z.to_nat (free_run 4 (slow 8 t)) in
  nth (S t) (outs dmac_bi_scaled dmac_init h) 0 = b2z (Bool.eqb (free_run 8 t <? held_a h t i) (free_run 8 (slow 8 t) <? held_b h t i)).
Proof. intros Hr Ht. exact (dmac_nth 8 4 _ _ h t ltac:(lia) ltac:(lia) dmac_mul_bi_bitof Hr Ht). Qed.

Lemma dmac_or_state w h : (1 <= w)%nat -> rows_ok h -> let t := length h in exists out,
  final (dmac_uni_nonscaled w) dmac_or_init h =
  ((Z.of_nat (t mod 2 ^ w), Z.of_nat (t / 2 ^ w mod 2 ^ w)), (sob_st w t, sob_st w (slow w t)), map (dmac_bufs h) (seq 0 16), out).
Proof.
  intros Hw. pose proof (Nat.pow_nonzero 2 w ltac:(lia)) as Hn. induction h as [|x h IH] using rev_ind; intros Hr t.
  - exists 0. unfold t. cbn [length]. unfold slow. rewrite Nat.div_0_l, Nat.mod_0_l, Nat.div_0_l, Nat.mul_0_l by exact Hn.
    replace (if (0 =? 2 ^ w - 1)%nat then 0 else 0)%nat with 0%nat by (now destruct (0 =? 2 ^ w - 1)%nat). rewrite !sob_st_0 by lia. reflexivity.
  - apply rows_snoc in Hr. destruct Hr as [Hr Hx]. destruct (IH Hr) as [out E]. rewrite final_snoc, E. unfold t. rewrite app_length. cbn [length].
    rewrite Nat.add_1_r. set (k := length h) in *. destruct (slow_step w k Hw) as (E1 & E2 & E3). rewrite E1, <- E2, <- E3.
    unfold dmac_uni_nonscaled. rewrite sobol_en by exact Hw. rewrite (sobol_slow w _ _ Hw).
    rewrite (lanes_tab dmac_mul_uni _ ((0, 0, 0, 0), (sob_at w k, free_run w (slow w k))) 16) by (rewrite map_length; exact Hx).
    cbn [fst]. eexists. f_equal. f_equal. apply map_ext. intros i. rewrite (map_nth (fun i => (i, (sob_at w k, free_run w (slow w k))))).
    rewrite dmac_mul_uni_bitof. unfold dmac_bufs. cbn [fst snd]. rewrite held_snoc_a, held_snoc_b. fold k. reflexivity.
Qed.
Lemma exists_ext {A} (f g : A -> Z) l : (forall i, In i l -> f i = g i) -> existsb (Z.eqb 1) (map f l) = existsb (Z.eqb 1) (map g l).
Proof. intros H. rewrite (map_ext_in f g l H). reflexivity. Qed.
Lemma dmac_or_nth w h t : (1 <= w)%nat -> rows_ok h -> (S t < length h)%nat ->
  nth (S t) (outs (dmac_uni_nonscaled w) dmac_or_init h) 0 =
  b2z (free_run w t <? largest (fun i => if free_run w (slow w t) <? held_b h t i then held_a h t i else 0)).
Proof.
  intros Hw Hr Ht. rewrite (outs_nth _ _ h (S t) [] 0 Ht).
  assert (E : firstn (S t) h = firstn t h ++ [nth t h []]).
  { clear -Ht. revert t Ht. induction h as [|c h IH]; intros t Ht; [cbn in Ht; lia|]. destruct t as [|t]; [reflexivity|].
    cbn [firstn app nth]. f_equal. apply IH. cbn [length] in Ht. lia. }
  assert (Hr' : rows_ok (firstn t h)) by (apply BaseLemmas.Forall_firstn; exact Hr).
  assert (Lx : length (nth t h []) = 16%nat) by (apply (proj1 (Forall_forall _ _) Hr); apply nth_In; lia).
  destruct (dmac_or_state w (firstn t h) Hw Hr') as [out F].
  rewrite E, final_snoc, F. rewrite firstn_length_le by lia. unfold dmac_uni_nonscaled at 2. rewrite sobol_en by exact Hw.
  rewrite (sobol_slow w _ _ Hw).
  rewrite (lanes_tab dmac_mul_uni _ ((0, 0, 0, 0), (sob_at w t, free_run w (slow w t))) 16) by (rewrite map_length; exact Lx).
  cbn [fst]. unfold dmac_uni_nonscaled. rewrite sobol_en by exact Hw.
  destruct (sobol_rtl w (sob_st w (slow w t + _)) _) as [rB' sB]. destruct (mac_lanes _ _ _) as [m' mc].
  cbn [snd]. unfold largest. rewrite <- exists_largest by (apply free_run_range; exact Hw). f_equal. apply exists_ext. intros i Hi.
  rewrite (map_nth (fun i => (i, (sob_at w t, free_run w (slow w t))))), dmac_mul_uni_bitof. unfold dmac_bufs. cbn [snd fst].
  rewrite held_prefix_a, held_prefix_b by lia. rewrite <- free_run_at by exact Hw.
  pose proof (free_run_range w t Hw) as R.
  destruct (free_run w (slow w t) <? held_b h t i); [rewrite andb_true_r; reflexivity|].
  rewrite andb_false_r. destruct (Z.ltb_spec (free_run w t) 0); [lia|reflexivity].
Qed.

(** Between the moments at which it runs, the second generator stands. *)
Lemma free_run_period : forall q k, free_run 4 (q * 512 + k) = free_run 4 k /\ free_run 8 (q * 512 + k) = free_run 8 k.
Proof.
  assert (E4 : rng_after 4 512 = sobol_rtl_init) by (vm_compute; reflexivity).
  assert (E8 : rng_after 8 512 = sobol_rtl_init) by (vm_compute; reflexivity).
  induction q as [|q IH]; intros k; [split; reflexivity|]. replace (S q * 512 + k)%nat with (512 + (q * 512 + k))%nat by lia.
  rewrite (free_run_from 4 512) by (try exact E4; lia). rewrite (free_run_from 8 512) by (try exact E8; lia). apply IH.
Qed.
Lemma slow_value n : free_run 4 (n * 256) = 0 /\ free_run 8 (n * 256) = if Nat.even n then 0 else 129.
Proof.
  pose proof (Nat.div_mod n 2 ltac:(lia)) as E. rewrite <- Nat.bit0_mod in E.
  destruct (free_run_period (n / 2) (Nat.b2n (Nat.testbit n 0) * 256)) as [F4 F8].
  replace (n * 256)%nat with (n / 2 * 512 + Nat.b2n (Nat.testbit n 0) * 256)%nat by lia. rewrite F4, F8.
  rewrite Nat.bit0_odd, <- Nat.negb_even. destruct (Nat.even n); vm_compute; split; reflexivity.
Qed.
Lemma slow_still p i : (i < 256)%nat -> (p mod 256 < 255)%nat -> slow 8 (p * 256 + i) = (p / 256 * 256)%nat.
Proof.
  intros Hi Hp. unfold slow. change (2 ^ 8)%nat with 256%nat.
  replace ((p * 256 + i) / 256)%nat with p by (apply (Nat.div_unique _ 256 _ i); lia).
  destruct (Nat.eqb_spec (p mod 256) (256 - 1)); [lia|]. lia.
Qed.
Lemma dmac_uni_count h A B p : rows_ok h -> (p * 256 + 256 < length h)%nat -> holds h A B (p * 256) 256 -> (p mod 256 < 255)%nat ->
  0 <= A 0%nat <= 256 ->
  ones_from (S (p * 256)) 256 (outs dmac_uni_scaled dmac_init h) =
  if (if Nat.even (p / 256) then 0 else 129) <? B 0%nat then A 0%nat else 0.
Proof.
  intros Hr L Hh Hp HA. destruct (slow_value (p / 256)) as [S4 S8].
  rewrite (period_count (fun v => (v <? A 0%nat) && (free_run 8 (p / 256 * 256) <? B 0%nat))); [|intros i Hi|rewrite outs_length; exact L].
  - rewrite S8. destruct ((if Nat.even (p / 256) then 0 else 129) <? B 0%nat).
    + rewrite (countb_ext _ (fun v => v <? A 0%nat)) by (intros; apply andb_true_r). rewrite countb_lt_zrange. unfold zclamp. lia.
    + rewrite (countb_ext _ (fun v => v <? 0)).
      * rewrite countb_lt_zrange. reflexivity.
      * intros v Hv. rewrite andb_false_r. symmetry. apply Z.ltb_ge. apply in_map_iff in Hv. destruct Hv as (k & <- & _). lia.
  - rewrite dmac_uni_nth by (try exact Hr; lia). rewrite slow_still by assumption. rewrite S4. change (Z.to_nat 0) with 0%nat.
    destruct (Hh (p * 256 + i)%nat 0%nat ltac:(lia) ltac:(lia)) as [-> ->]. reflexivity.
Qed.
Lemma dmac_bi_count h A B p : rows_ok h -> (p * 256 + 256 < length h)%nat -> holds h A B (p * 256) 256 -> (p mod 256 < 255)%nat ->
  0 <= A 0%nat <= 256 ->
  ones_from (S (p * 256)) 256 (outs dmac_bi_scaled dmac_init h) =
  if (if Nat.even (p / 256) then 0 else 129) <? B 0%nat then A 0%nat else 256 - A 0%nat.
Proof.
  intros Hr L Hh Hp HA. destruct (slow_value (p / 256)) as [S4 S8].
  rewrite (period_count (fun v => Bool.eqb (v <? A 0%nat) (free_run 8 (p / 256 * 256) <? B 0%nat))); [|intros i Hi|rewrite outs_length; exact L].
  - rewrite S8. destruct ((if Nat.even (p / 256) then 0 else 129) <? B 0%nat).
    + rewrite (countb_ext _ (fun v => v <? A 0%nat)) by (intros v _; now destruct (v <? A 0%nat)). rewrite countb_lt_zrange. unfold zclamp. lia.
    + rewrite (countb_ext _ (fun v => negb (v <? A 0%nat))) by (intros v _; now destruct (v <? A 0%nat)).
      rewrite countb_negb, countb_lt_zrange. change (zlen (zrange 256)) with 256. unfold zclamp. lia.
  - rewrite dmac_bi_nth by (try exact Hr; lia). rewrite slow_still by assumption. rewrite S4. change (Z.to_nat 0) with 0%nat.
    destruct (Hh (p * 256 + i)%nat 0%nat ltac:(lia) ltac:(lia)) as [-> ->]. reflexivity.
Qed.
Lemma dmac_or_count h A B p : rows_ok h -> (p * 256 + 256 < length h)%nat -> holds h A B (p * 256) 256 -> (p mod 256 < 255)%nat ->
  (forall i, (i < 16)%nat -> 0 <= A i <= 256) ->
  ones_from (S (p * 256)) 256 (outs (dmac_uni_nonscaled 8) dmac_or_init h) =
  largest (fun i => if (if Nat.even (p / 256) then 0 else 129) <? B i then A i else 0).
Proof.
  intros Hr L Hh Hp HA. destruct (slow_value (p / 256)) as [S4 S8].
  set (m := fun i => if (if Nat.even (p / 256) then 0 else 129) <? B i then A i else 0).
  rewrite (period_count (fun v => v <? largest m)); [|intros i Hi|rewrite outs_length; exact L].
  - rewrite countb_lt_zrange.
    pose proof (largest_range m 256 ltac:(lia) ltac:(intros i Hi; specialize (HA i Hi); unfold m; destruct (_ <? B i); lia)). unfold zclamp. lia.
  - rewrite dmac_or_nth by (try exact Hr; lia). rewrite slow_still by assumption. rewrite S8. do 2 f_equal. apply largest_ext. intros j Hj.
    destruct (Hh (p * 256 + i)%nat j ltac:(lia) Hj) as [-> ->]. reflexivity.
Qed.
