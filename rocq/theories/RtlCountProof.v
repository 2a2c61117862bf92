(** Proofs about the feedback counters of hw/kernel/div and hw/kernel/sqrt. *)
Require Import Verif.BaseLemmas Verif.RtlMoreModel Verif.RtlMoreSpec Verif.RtlProof.
Open Scope Z_scope.

Lemma gcnt_spec d c i e : 0 <= c < p2 (S d) -> bit i -> bit e -> gcnt d c i e = zclamp 0 (p2 (S d) - 1) (c + i - e).
Proof.
  intros Hc [-> | ->] [-> | ->]; unfold gcnt, red_and, red_or, zclamp; cbn [Z.eqb Pos.eqb andb negb];
    destruct (Z.eqb_spec c (p2 (S d) - 1)), (Z.eqb_spec c 0); cbn [andb negb];
    rewrite ?trunc_id by lia; lia.
Qed.
Lemma gcnt_range d c i e : 0 <= c < p2 (S d) -> bit i -> bit e -> 0 <= gcnt d c i e < p2 (S d).
Proof. intros Hc Hi He. rewrite gcnt_spec by assumption. unfold zclamp. pose proof (p2_pos (S d)). lia. Qed.

Lemma b2z_bit b : bit (b2z b). Proof. destruct b; [right|left]; reflexivity. Qed.
Lemma bnot_bit x : bit x -> bit (bnot x). Proof. intros [-> | ->]; [right|left]; reflexivity. Qed.
Lemma land_bit x y : bit x -> bit y -> bit (Z.land x y).
Proof. intros [-> | ->] [-> | ->]; cbn; [left|left|left|right]; reflexivity. Qed.
Lemma lxor_bit x y : bit x -> bit y -> bit (Z.lxor x y).
Proof. intros [-> | ->] [-> | ->]; cbn; [left|right|right|left]; reflexivity. Qed.
Lemma gcnt_init_range d : 0 <= gcnt_init d < p2 (S d).
Proof. unfold gcnt_init. rewrite p2_S. pose proof (p2_pos d). lia. Qed.
Lemma ones_cons_bit x l : bit x -> ones (x :: l) = x + ones l.
Proof. intros [-> | ->]; rewrite ones_cons; reflexivity. Qed.
Lemma delayed_cons {A} (d x : A) l : delayed d (x :: l) = d :: delayed x l.
Proof. reflexivity. Qed.

(** ** GDIV_U *)

Lemma gdiv_u_step d c p : 0 <= c < p2 (S d) -> din_ok d p ->
  let c' := fst (gdiv_u d c p) in let u := Z.land (snd (gdiv_u d c p)) (in_divisor p) in
  0 <= c' < p2 (S d) /\ bit (snd (gdiv_u d c p)) /\ c' - c <= in_dividend p - u <= c' - c + b2z (gdiv_loss d p).
Proof.
  destruct p as [[r a] b]. intros Hc (Hr & Ha & Hb). unfold din_ok, in_dividend, in_divisor, gdiv_loss, gdiv_u in *.
  cbn [fst snd] in *. cbv zeta. pose proof (b2z_bit (c >? r)) as Hq.
  rewrite gcnt_spec by (try apply land_bit; assumption). pose proof (p2_pos (S d)) as Hp.
  split; [unfold zclamp; lia|]. split; [exact Hq|].
  unfold zclamp, b2z, in_dividend, in_divisor. cbn [fst snd].
  destruct (Z.gtb_spec c r), Ha as [-> | ->], Hb as [-> | ->]; cbn [Z.eqb Pos.eqb andb orb]; rewrite ?Z.land_0_l, ?Z.land_0_r;
    change (Z.land 1 1) with 1; destruct (Z.eqb_spec r (p2 (S d) - 1)); lia.
Qed.

Lemma gdiv_u_run d h : forall c, 0 <= c < p2 (S d) -> Forall (din_ok d) h ->
  let c' := final (gdiv_u d) c h in let qs := outs (gdiv_u d) c h in
  0 <= c' < p2 (S d) /\ bits qs /\
  c' - c <= ones (map in_dividend h) - ones (map2 Z.land qs (map in_divisor h)) <= c' - c + countb (gdiv_loss d) h.
Proof.
  induction h as [|p h IH]; intros c Hc Hh; [split; [exact Hc|]; split; [apply Forall_nil|cbn; lia]|].
  cbv zeta. rewrite final_cons, outs_cons. destruct (gdiv_u_step d c p Hc (Forall_inv Hh)) as (Hc' & Hq & Hs). cbv zeta in Hs.
  destruct (IH _ Hc' (Forall_inv_tail Hh)) as (H1 & H2 & H3). cbv zeta in H3.
  split; [exact H1|]. split; [constructor; assumption|]. cbn [map map2 countb].
  pose proof (Forall_inv Hh) as (_ & Ha & Hb). 
  rewrite !ones_cons_bit by (try apply land_bit; assumption).
  unfold in_dividend, in_divisor in *. unfold b2z in Hs. destruct (gdiv_loss d p); lia.
Qed.

(** After any history: the next stretch. *)
Lemma gdiv_u_stretch d g h : Forall (din_ok d) g -> Forall (din_ok d) h ->
  let qs := outs (gdiv_u d) (final (gdiv_u d) (gcnt_init d) g) h in
  - (p2 (S d) - 1) <= ones (map in_dividend h) - ones (map2 Z.land qs (map in_divisor h)) <= p2 (S d) - 1 + countb (gdiv_loss d) h.
Proof.
  intros Hg Hh. destruct (gdiv_u_run d g _ (gcnt_init_range d) Hg) as (Hc & _).
  destruct (gdiv_u_run d h _ Hc Hh) as (Hc' & _ & H). cbv zeta in *. lia.
Qed.
Lemma gdiv_u_total d h : Forall (din_ok d) h -> let qs := outs (gdiv_u d) (gcnt_init d) h in
  - p2 d <= ones (map in_dividend h) - ones (map2 Z.land qs (map in_divisor h)) <= p2 d - 1 + countb (gdiv_loss d) h.
Proof.
  intros Hh. destruct (gdiv_u_run d h _ (gcnt_init_range d) Hh) as (Hc' & _ & H). cbv zeta in *.
  unfold gcnt_init in H at 1 4. rewrite p2_S in *. unfold gcnt_init in *. lia.
Qed.

(** Evaluates exclusive-ors and conjunctions of constants. *)
Ltac closed_bits := repeat match goal with
  | |- context [Z.lxor ?a ?b] => let v := eval vm_compute in (Z.lxor a b) in change (Z.lxor a b) with v
  | |- context [Z.land ?a ?b] => let v := eval vm_compute in (Z.land a b) in change (Z.land a b) with v
  | |- context [Z.eqb ?a ?b] => let v := eval vm_compute in (Z.eqb a b) in change (Z.eqb a b) with v
  end; cbn [negb].

(** ** GDIV_B: the ±1 products *)
Definition ddelta (bd : Z) (p : Z * Z * Z) (q : Z) : Z := pm (in_divisor p) * (pm (in_dividend p) - pm bd * pm q).
Definition changed (bd : Z) (p : Z * Z * Z) : bool := negb (in_divisor p =? bd).

Lemma gdiv_b_step d c bd p : 0 <= c < p2 (S d) -> bit bd -> din_ok d p -> fst (fst p) < p2 (S d) - 1 ->
  let s := gdiv_b d (c, bd) p in
  0 <= fst (fst s) < p2 (S d) /\ snd (fst s) = in_divisor p /\ bit (snd s) /\
  Z.abs (ddelta bd p (snd s) - 2 * (fst (fst s) - c)) <= 2 * b2z (changed bd p).
Proof.
  destruct p as [[r a] b]. intros Hc Hbd (Hr & Ha & Hb) Hm. unfold din_ok, in_dividend, in_divisor, gdiv_b, changed in *.
  cbn [fst snd] in *. cbv zeta. pose proof (b2z_bit (c >? r)) as Hq. cbn [fst snd].
  pose proof (p2_pos (S d)) as Hp.
  rewrite gcnt_spec; [|assumption|repeat (apply land_bit || apply bnot_bit || apply lxor_bit); assumption|
    repeat (apply land_bit || apply bnot_bit || apply lxor_bit); assumption].
  split; [unfold zclamp; lia|]. split; [reflexivity|]. split; [exact Hq|].
  unfold ddelta, pm, zclamp, bnot, in_divisor, in_dividend. cbn [fst snd].
  unfold b2z in *. destruct (Z.gtb_spec c r), Ha as [-> | ->], Hb as [-> | ->], Hbd as [-> | ->];
    closed_bits; lia.
Qed.

Fixpoint gdiv_b_sum (bd : Z) (h : list (Z * Z * Z)) (qs : list Z) : Z :=
  match h, qs with p :: h', q :: qs' => ddelta bd p q + gdiv_b_sum (in_divisor p) h' qs' | _, _ => 0 end.

Lemma gdiv_b_run d h : forall c bd, 0 <= c < p2 (S d) -> bit bd -> Forall (fun p => din_ok d p /\ fst (fst p) < p2 (S d) - 1) h ->
  let s := final (gdiv_b d) (c, bd) h in let qs := outs (gdiv_b d) (c, bd) h in
  0 <= fst s < p2 (S d) /\ bit (snd s) /\ bits qs /\
  Z.abs (gdiv_b_sum bd h qs - 2 * (fst s - c)) <= 2 * changes bd (map in_divisor h).
Proof.
  induction h as [|p h IH]; intros c bd Hc Hb Hh; [split; [exact Hc|]; split; [exact Hb|]; split; [apply Forall_nil|];
    rewrite final_nil; cbn [gdiv_b_sum fst map changes]; lia|].
  cbv zeta. rewrite final_cons, outs_cons. destruct (Forall_inv Hh) as [Hp Hm].
  destruct (gdiv_b_step d c bd p Hc Hb Hp Hm) as (Hc' & Es & Hq & Hs). cbv zeta in *.
  destruct (gdiv_b d (c, bd) p) as [[c' bd'] q]. cbn [fst snd] in *. subst bd'.
  assert (Hb' : bit (in_divisor p)) by apply Hp.
  destruct (IH c' _ Hc' Hb' (Forall_inv_tail Hh)) as (H1 & H2 & H3 & H4). cbv zeta in *.
  split; [exact H1|]. split; [exact H2|]. split; [constructor; assumption|].
  cbn [map gdiv_b_sum changes]. unfold changed, b2z in Hs. destruct (in_divisor p =? bd); cbn [negb] in Hs; lia.
Qed.

Lemma gdiv_b_sum_split h : forall bd qs, length qs = length h ->
  gdiv_b_sum bd h qs = zsum (map2 Z.mul (map pm (map in_dividend h)) (map pm (map in_divisor h))) -
    zsum (map2 Z.mul (map2 Z.mul (map pm (map in_divisor h)) (map pm (delayed bd (map in_divisor h)))) (map pm qs)).
Proof.
  induction h as [|p h IH]; intros bd [|q qs] Hl; try discriminate; [reflexivity|].
  cbn [map gdiv_b_sum]. rewrite delayed_cons. cbn [map map2 zsum]. rewrite IH by (cbn [length] in Hl; lia).
  unfold ddelta. ring.
Qed.

Lemma gdiv_b_stretch d g h : Forall (fun p => din_ok d p /\ fst (fst p) < p2 (S d) - 1) g ->
  Forall (fun p => din_ok d p /\ fst (fst p) < p2 (S d) - 1) h ->
  let st := final (gdiv_b d) (gdiv_b_init d) g in let qs := outs (gdiv_b d) st h in
  let a := map pm (map in_dividend h) in let b := map pm (map in_divisor h) in let b' := map pm (delayed (snd st) (map in_divisor h)) in
  Z.abs (zsum (map2 Z.mul a b) - zsum (map2 Z.mul (map2 Z.mul b b') (map pm qs))) <=
  2 * (p2 (S d) - 1) + 2 * changes (snd st) (map in_divisor h).
Proof.
  intros Hg Hh. cbv zeta. destruct (gdiv_b_run d g _ 0 (gcnt_init_range d) (or_introl eq_refl) Hg) as (Hc & Hb & _).
  cbv zeta in *. change (gcnt_init d, 0) with (gdiv_b_init d) in *.
  set (st := final (gdiv_b d) (gdiv_b_init d) g) in *. rewrite (surjective_pairing st) at 2.
  destruct (gdiv_b_run d h _ _ Hc Hb Hh) as (Hc' & _ & _ & H). cbv zeta in *.
  rewrite <- gdiv_b_sum_split by apply outs_length. lia.
Qed.
Lemma last_default {A} (x : A) l a b : last (x :: l) a = last (x :: l) b.
Proof. revert x. induction l as [|y l IH]; intros x; [reflexivity|]. exact (IH y). Qed.
Lemma gdiv_b_divisor d h : forall st, snd (final (gdiv_b d) st h) = last (map in_divisor h) (snd st).
Proof.
  induction h as [|[[r a] b] h IH]; intros [c bd]; [reflexivity|]. rewrite final_cons, IH. cbn [map fst snd gdiv_b].
  destruct h as [|p h]; [reflexivity|]. cbn [map]. change (last (in_divisor (r, a, b) :: in_divisor p :: map in_divisor h) bd)
    with (last (in_divisor p :: map in_divisor h) bd). apply last_default.
Qed.

(** ** GSQRT_U and GSQRT_B *)
Definition gsqrt_inv (d : nat) (s : Z * Z) : Prop :=
  0 <= fst s < p2 (S d) /\ bit (snd s) /\ (snd s = 0 -> fst s < p2 (S d) - 1).

Lemma gsqrt_u_step d s p : gsqrt_inv d s -> sin_ok d p -> let s' := gsqrt_u d s p in
  gsqrt_inv d (fst s') /\ snd (fst s') = snd s' /\ bit (snd s') /\
  fst (fst s') - fst s = snd p - Z.land (snd s') (snd s).
Proof.
  destruct s as [c o], p as [r x]. intros (Hc & Ho & Hi) (Hr & Hx). unfold gsqrt_u, gsqrt_inv in *. cbn [fst snd] in *.
  pose proof (b2z_bit (c >? r)) as Hq. pose proof (p2_pos (S d)) as Hp.
  rewrite gcnt_spec by (try apply land_bit; assumption). split; [|split; [reflexivity|split; [exact Hq|]]].
  - split; [unfold zclamp; lia|]. split; [exact Hq|]. unfold zclamp, b2z.
    destruct (Z.gtb_spec c r); [discriminate|]. intros _. rewrite Z.land_0_l. destruct Hx as [-> | ->]; lia.
  - unfold zclamp, b2z. destruct (Z.gtb_spec c r), Hx as [-> | ->], Ho as [-> | ->]; closed_bits; lia.
Qed.
Lemma gsqrt_u_run d h : forall s, gsqrt_inv d s -> Forall (sin_ok d) h ->
  let s' := final (gsqrt_u d) s h in let os := outs (gsqrt_u d) s h in
  gsqrt_inv d s' /\ bits os /\ fst s' - fst s = ones (map snd h) - ones (map2 Z.land os (delayed (snd s) os)).
Proof.
  induction h as [|p h IH]; intros s Hs Hh; [split; [exact Hs|]; split; [apply Forall_nil|cbn; lia]|].
  cbv zeta. rewrite final_cons, outs_cons. destruct (gsqrt_u_step d s p Hs (Forall_inv Hh)) as (Hs' & Eo & Hb & E). cbv zeta in *.
  destruct (IH _ Hs' (Forall_inv_tail Hh)) as (H1 & H2 & H3). cbv zeta in *. rewrite Eo in H3.
  split; [exact H1|]. split; [constructor; assumption|]. rewrite delayed_cons. cbn [map map2].
  destruct (Forall_inv Hh) as [_ Hx]. destruct Hs as (_ & Ho & _).
  rewrite !ones_cons_bit by (try apply land_bit; assumption). lia.
Qed.
Lemma gsqrt_init_inv d : (1 <= d)%nat -> gsqrt_inv d (gsqrt_init d).
Proof.
  intros Hd. unfold gsqrt_inv, gsqrt_init. cbn [fst snd]. pose proof (gcnt_init_range d) as H. split; [exact H|].
  split; [left; reflexivity|]. intros _. unfold gcnt_init. rewrite p2_S. destruct d; [lia|]. rewrite p2_S. pose proof (p2_pos d). lia.
Qed.
Lemma gsqrt_u_stretch d g h : (1 <= d)%nat -> Forall (sin_ok d) g -> Forall (sin_ok d) h ->
  let st := final (gsqrt_u d) (gsqrt_init d) g in let os := outs (gsqrt_u d) st h in
  Z.abs (ones (map snd h) - ones (map2 Z.land os (delayed (snd st) os))) <= p2 (S d) - 1.
Proof.
  intros Hd Hg Hh. cbv zeta. destruct (gsqrt_u_run d g _ (gsqrt_init_inv d Hd) Hg) as (Hs & _ & _). cbv zeta in Hs.
  destruct (gsqrt_u_run d h _ Hs Hh) as (Hs' & _ & E). cbv zeta in E. destruct Hs as (? & _). destruct Hs' as (? & _). lia.
Qed.
Lemma gsqrt_u_total d h : (1 <= d)%nat -> Forall (sin_ok d) h -> let os := outs (gsqrt_u d) (gsqrt_init d) h in
  - p2 d <= ones (map snd h) - ones (map2 Z.land os (delayed 0 os)) < p2 d.
Proof.
  intros Hd Hh. cbv zeta. destruct (gsqrt_u_run d h _ (gsqrt_init_inv d Hd) Hh) as ((Hc & _) & _ & E). cbv zeta in E.
  change (snd (gsqrt_init d)) with 0 in E. change (fst (gsqrt_init d)) with (p2 d) in E. rewrite p2_S in Hc. lia.
Qed.

Lemma gsqrt_b_step d s p : gsqrt_inv d s -> sin_ok d p -> let s' := gsqrt_b d s p in
  gsqrt_inv d (fst s') /\ snd (fst s') = snd s' /\ bit (snd s') /\
  let e := snd p - agree (snd s') (snd s) in
  e <= fst (fst s') - fst s <= e + b2z (gsqrt_loss (snd p, (snd s', snd s))).
Proof.
  destruct s as [c o], p as [r x]. intros (Hc & Ho & Hi) (Hr & Hx). unfold gsqrt_b, gsqrt_inv, gsqrt_loss, agree in *. cbn [fst snd] in *.
  pose proof (b2z_bit (c >? r)) as Hq. pose proof (p2_pos (S d)) as Hp.
  rewrite gcnt_spec by (repeat (apply bnot_bit || apply lxor_bit); assumption). split; [|split; [reflexivity|split; [exact Hq|]]].
  - split; [unfold zclamp; lia|]. split; [exact Hq|]. unfold zclamp, b2z.
    destruct (Z.gtb_spec c r); [discriminate|]. intros _. destruct Hx as [-> | ->], Ho as [-> | ->]; closed_bits; unfold bnot; lia.
  - unfold zclamp, b2z, bnot. destruct (Z.gtb_spec c r), Hx as [-> | ->], Ho as [-> | ->]; closed_bits; cbn [andb]; lia.
Qed.
Lemma gsqrt_b_run d h : forall s, gsqrt_inv d s -> Forall (sin_ok d) h ->
  let s' := final (gsqrt_b d) s h in let os := outs (gsqrt_b d) s h in
  gsqrt_inv d s' /\ bits os /\
  let e := ones (map snd h) - zsum (map2 agree os (delayed (snd s) os)) in
  e <= fst s' - fst s <= e + countb gsqrt_loss (combine (map snd h) (combine os (delayed (snd s) os))).
Proof.
  induction h as [|p h IH]; intros s Hs Hh; [split; [exact Hs|]; split; [apply Forall_nil|cbn; lia]|].
  cbv zeta. rewrite final_cons, outs_cons. destruct (gsqrt_b_step d s p Hs (Forall_inv Hh)) as (Hs' & Eo & Hb & E). cbv zeta in *.
  destruct (IH _ Hs' (Forall_inv_tail Hh)) as (H1 & H2 & H3). cbv zeta in *. rewrite Eo in H3.
  split; [exact H1|]. split; [constructor; assumption|]. rewrite delayed_cons. cbn [map map2 combine zsum countb].
  destruct (Forall_inv Hh) as [_ Hx].
  rewrite !ones_cons_bit by assumption. unfold b2z in E. destruct (gsqrt_loss (snd p, _)); lia.
Qed.
Lemma gsqrt_b_stretch d g h : (1 <= d)%nat -> Forall (sin_ok d) g -> Forall (sin_ok d) h ->
  let st := final (gsqrt_b d) (gsqrt_init d) g in let os := outs (gsqrt_b d) st h in
  let e := ones (map snd h) - zsum (map2 agree os (delayed (snd st) os)) in
  - (p2 (S d) - 1) - countb gsqrt_loss (combine (map snd h) (combine os (delayed (snd st) os))) <= e <= p2 (S d) - 1.
Proof.
  intros Hd Hg Hh. cbv zeta. destruct (gsqrt_b_run d g _ (gsqrt_init_inv d Hd) Hg) as (Hs & _ & _). cbv zeta in Hs.
  destruct (gsqrt_b_run d h _ Hs Hh) as (Hs' & _ & E). cbv zeta in E. destruct Hs as (? & _). destruct Hs' as (? & _). lia.
Qed.

(** The previous output is the last of the outputs so far. *)
Lemma gsqrt_u_prev d h : forall s, snd (final (gsqrt_u d) s h) = last (outs (gsqrt_u d) s h) (snd s).
Proof.
  induction h as [|[r x] h IH]; intros [c o]; [reflexivity|]. rewrite final_cons, IH, outs_cons. cbn [fst snd gsqrt_u].
  destruct h as [|p h]; [reflexivity|]. rewrite outs_cons. set (y := snd _). set (l := outs _ _ _).
  change (last (b2z (c >? r) :: y :: l) o) with (last (y :: l) o). apply last_default.
Qed.

(** ** The largest random number *)
Lemma gt_max c m : 0 <= c <= m -> b2z (c >? m) = 0.
Proof. intros H. destruct (Z.gtb_spec c m); [lia|reflexivity]. Qed.
Lemma gsqrt_stuck_step d c : 0 <= c < p2 (S d) -> gsqrt_u d (c, 0) (p2 (S d) - 1, 1) = ((gcnt d c 1 0, 0), 0).
Proof. intros Hc. unfold gsqrt_u. rewrite gt_max by lia. reflexivity. Qed.
Lemma gsqrt_stuck d n : forall c, 0 <= c < p2 (S d) ->
  outs (gsqrt_u d) (c, 0) (repeat (p2 (S d) - 1, 1) n) = repeat 0 n.
Proof.
  induction n as [|n IH]; intros c Hc; [reflexivity|]. cbn [repeat]. rewrite outs_cons, gsqrt_stuck_step by exact Hc. cbn [fst snd].
  f_equal. apply IH. apply gcnt_range; [exact Hc|right; reflexivity|left; reflexivity].
Qed.
Lemma gdiv_stuck_step d c : 0 <= c < p2 (S d) -> gdiv_u d c (p2 (S d) - 1, 1, 1) = (gcnt d c 1 0, 0).
Proof. intros Hc. unfold gdiv_u. rewrite gt_max by lia. reflexivity. Qed.
Lemma gdiv_stuck d n : forall c, 0 <= c < p2 (S d) ->
  outs (gdiv_u d) c (repeat (p2 (S d) - 1, 1, 1) n) = repeat 0 n.
Proof.
  induction n as [|n IH]; intros c Hc; [reflexivity|]. cbn [repeat]. rewrite outs_cons, gdiv_stuck_step by exact Hc. cbn [fst snd].
  f_equal. apply IH. apply gcnt_range; [exact Hc|right; reflexivity|left; reflexivity].
Qed.
Lemma gdiv_u_stuck d n : outs (gdiv_u d) (gcnt_init d) (repeat (p2 (S d) - 1, 1, 1) n) = repeat 0 n.
Proof. apply gdiv_stuck, gcnt_init_range. Qed.
Lemma gsqrt_u_stuck d n : outs (gsqrt_u d) (gsqrt_init d) (repeat (p2 (S d) - 1, 1) n) = repeat 0 n.
Proof. apply gsqrt_stuck, gcnt_init_range. Qed.
Lemma gsqrt_b_prev d h : forall s, snd (final (gsqrt_b d) s h) = last (outs (gsqrt_b d) s h) (snd s).
Proof.
  induction h as [|[r x] h IH]; intros [c o]; [reflexivity|]. rewrite final_cons, IH, outs_cons. cbn [fst snd gsqrt_b].
  destruct h as [|p h]; [reflexivity|]. rewrite outs_cons. set (y := snd _). set (l := outs _ _ _).
  change (last (b2z (c >? r) :: y :: l) o) with (last (y :: l) o). apply last_default.
Qed.
Lemma map_repeat {A B} (f : A -> B) x n : map f (repeat x n) = repeat (f x) n.
Proof. induction n; [reflexivity|]. cbn [repeat map]. f_equal. exact IHn. Qed.
