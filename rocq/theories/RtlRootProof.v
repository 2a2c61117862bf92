(** Proofs about the feedback square roots. *)
Require Import Verif.BaseLemmas Verif.RtlRootModel Verif.RtlRootSpec Verif.RtlProof Verif.RtlCountProof Verif.RtlMulProof Verif.RtlRngProof.
Open Scope Z_scope.

Lemma oroot_out_law d acc : 0 <= acc < p2 (S d) -> oroot_out d acc = b2z (p2 d <? acc).
Proof.
  intros H. unfold oroot_out. rewrite bsel_top by exact H. rewrite p2_S in H. pose proof (p2_pos d). unfold red_or, trunc.
  destruct (Z.geb_spec acc (p2 d)) as [E|E]; destruct (Z.ltb_spec (p2 d) acc) as [E'|E']; try lia.
  - replace acc with ((acc - p2 d) + 1 * p2 d) by lia. rewrite Z.mod_add, Z.mod_small by lia.
    destruct (Z.eqb_spec (acc - p2 d) 0); [lia|reflexivity].
  - replace acc with (0 + 1 * p2 d) by lia. rewrite Z.mod_add, Z.mod_small by lia. reflexivity.
  - apply Z.land_0_l.
Qed.
Lemma land_bit_b a b : bit a -> bit b -> bit (Z.land a b).
Proof. intros [-> | ->] [-> | ->]; [left|left|left|right]; reflexivity. Qed.

(** What both modules do, given the gating bits. *)
Inductive oroot_law (d : nat) : list Z -> Z -> list (Z * Z * Z) -> list Z -> list Z -> Prop :=
| ol_nil sr acc : oroot_law d sr acc [] [] []
| ol_cons sr acc r u x h g gs os :
    let o := oroot_out d acc in
    oroot_law d (tl sr ++ [1 - o]) (trunc (S d) (acc + (x + Z.land g (nth (Z.to_nat r) sr u)) - o)) h gs os ->
    oroot_law d sr acc ((r, u, x) :: h) (g :: gs) (o :: os).

Lemma oroot_u_law d h : forall sr acc, oroot_law d sr acc h (outs (bisqrt_o_u d) (sr, acc) h) (outs (bisqrt_o_u d) (sr, acc) h).
Proof.
  induction h as [|[[r u] x] h IH]; intros sr acc; [constructor|]. rewrite outs_cons.
  change (snd (bisqrt_o_u d (sr, acc) (r, u, x))) with (oroot_out d acc). apply ol_cons. apply IH.
Qed.
Lemma oroot_b_law d h : forall sr bu acc,
  oroot_law d sr acc h (outs (bi2uni_rtl 2) bu (outs (bisqrt_o_b d) (sr, bu, acc) h)) (outs (bisqrt_o_b d) (sr, bu, acc) h).
Proof.
  induction h as [|[[r u] x] h IH]; intros sr bu acc; [constructor|].
  assert (Step : bisqrt_o_b d (sr, bu, acc) (r, u, x) =
    ((tl sr ++ [1 - oroot_out d acc], fst (bi2uni_rtl 2 bu (oroot_out d acc)),
      trunc (S d) (acc + (x + Z.land (snd (bi2uni_rtl 2 bu (oroot_out d acc))) (nth (Z.to_nat r) sr u)) - oroot_out d acc)), oroot_out d acc))
    by (unfold bisqrt_o_b; destruct (bi2uni_rtl 2 bu (oroot_out d acc)); reflexivity).
  rewrite outs_cons, Step. cbn [fst snd]. rewrite outs_cons. apply ol_cons. apply IH.
Qed.
Lemma oroot_law_length d sr acc h gs os : oroot_law d sr acc h gs os -> length gs = length h /\ length os = length h.
Proof. induction 1; cbn [length]; lia. Qed.

Lemma root_fed_cons dep sr r u x h g gs o os : (1 <= dep)%nat -> length sr = dep ->
  root_fed dep sr ((r, u, x) :: h) (g :: gs) (o :: os) =
  Z.land g (nth (Z.to_nat r) sr u) :: root_fed dep (tl sr ++ [1 - o]) h gs os.
Proof.
  intros Hd L. unfold root_fed. cbn [length seq map]. f_equal.
  - unfold root_pick. cbn [nth skipn]. rewrite firstn_app, L, Nat.sub_diag, firstn_O, app_nil_r, firstn_all2 by lia. reflexivity.
  - rewrite <- seq_shift, map_map. apply map_ext. intros t. unfold root_pick. cbn [nth map]. 
    destruct sr as [|a sr]; [cbn in L; lia|]. cbn [tl skipn app]. rewrite <- app_assoc. reflexivity.
Qed.
Lemma root_balance_cons p h e es o os t : bit (root_in p) -> bit e -> bit o ->
  root_balance (p :: h) (e :: es) (o :: os) (S t) = root_in p + e - o + root_balance h es os t.
Proof. intros H1 H2 H3. unfold root_balance. cbn [firstn map]. rewrite !ones_cons_bit by assumption. lia. Qed.
Lemma root_balance_0 h es os : root_balance h es os 0 = 0.
Proof. reflexivity. Qed.
Lemma nth_bits i sr u : bits sr -> bit u -> bit (nth i sr u).
Proof.
  intros Hs Hu. destruct (Nat.lt_ge_cases i (length sr)) as [L|G]; [|rewrite nth_overflow by exact G; exact Hu].
  apply (proj1 (Forall_forall _ _) Hs). apply nth_In. exact L.
Qed.
Lemma oroot_out_bit d acc : 0 <= acc < p2 (S d) -> bit (oroot_out d acc).
Proof. intros H. rewrite oroot_out_law by exact H. unfold b2z. destruct (p2 d <? acc); [right|left]; reflexivity. Qed.
Lemma sr_next_bits sr o : bits sr -> bit o -> bits (tl sr ++ [1 - o]).
Proof.
  intros Hs Ho. apply Forall_app. split; [destruct sr; [exact Hs|exact (Forall_inv_tail Hs)]|].
  constructor; [|constructor]. destruct Ho as [-> | ->]; [right|left]; reflexivity.
Qed.
Lemma sr_next_length (sr : list Z) dep o : (1 <= dep)%nat -> length sr = dep -> length (tl sr ++ [1 - o]) = dep.
Proof. intros Hd L. rewrite app_length. destruct sr; cbn [tl length] in *; lia. Qed.

Lemma oroot_law_outs d sr acc h gs os : oroot_law d sr acc h gs os -> length sr = S d -> bits sr -> bits gs -> Forall root_ok h ->
  0 <= acc < p2 (S d) -> forall t, (t < length h)%nat ->
  nth t os 0 = b2z (p2 d <? (acc + root_balance h (root_fed (S d) sr h gs os) os t) mod p2 (S d)).
Proof.
  induction 1 as [|sr acc r u x h g gs os o H IH]; intros L Hs Hg Hh Ha t Ht; [cbn in Ht; lia|].
  pose proof (oroot_out_bit d acc Ha) as Ho. fold o in Ho. pose proof (Forall_inv Hh) as (_ & Hu & Hx). cbn [root_unknown root_in fst snd] in Hu, Hx.
  destruct t as [|t].
  - rewrite root_balance_0, Z.add_0_r, Z.mod_small by exact Ha. apply oroot_out_law. exact Ha.
  - cbn [length nth] in *. pose proof (p2_pos (S d)) as Hp. rewrite root_fed_cons by lia.
    rewrite root_balance_cons; [|exact Hx|apply land_bit_b; [exact (Forall_inv Hg)|apply nth_bits; assumption]|exact Ho].
    rewrite IH; [|apply sr_next_length; lia|apply sr_next_bits; assumption|exact (Forall_inv_tail Hg)|exact (Forall_inv_tail Hh)
      |apply Z.mod_pos_bound; lia|lia].
    unfold trunc. rewrite Zplus_mod_idemp_l. do 3 f_equal. unfold root_in. cbn [snd]. lia.
Qed.

(** How many clocks the last one of the register still stays in it. *)
Fixpoint last_one (l : list Z) : Z :=
  match l with [] => 0 | x :: r => if 0 <? last_one r then 1 + last_one r else if x =? 1 then 1 else 0 end.
Lemma last_one_bounds l : 0 <= last_one l <= Z.of_nat (length l).
Proof. induction l as [|x l IH]; cbn [last_one length]; [lia|]. destruct (Z.ltb_spec 0 (last_one l)); destruct (x =? 1); lia. Qed.
Lemma last_one_nth l : forall i, (i < length l)%nat -> forall u, nth i l u = 1 -> 1 <= last_one l.
Proof.
  induction l as [|x l IH]; intros i Hi u E; cbn [length] in Hi; [lia|]. pose proof (last_one_bounds l). cbn [last_one].
  destruct i as [|i]; cbn [nth] in E.
  - subst x. destruct (Z.ltb_spec 0 (last_one l)); change (1 =? 1) with true; cbv iota; lia.
  - specialize (IH i ltac:(lia) u E). destruct (Z.ltb_spec 0 (last_one l)); lia.
Qed.
Lemma last_one_snoc0 l : last_one (l ++ [0]) = last_one l.
Proof. induction l as [|x l IH]; [reflexivity|]. cbn [app last_one]. rewrite IH. reflexivity. Qed.
Lemma last_one_tl l : last_one (tl l) <= Z.max 0 (last_one l - 1).
Proof. destruct l as [|x l]; [cbn; lia|]. cbn [tl last_one]. pose proof (last_one_bounds l). destruct (Z.ltb_spec 0 (last_one l)); destruct (x =? 1); lia. Qed.

(** The register holds no one for long after the counter has left its lowest value, so the counter does not wrap. *)
Lemma oroot_law_bound d k sr acc h gs os : oroot_law d sr acc h gs os -> length sr = S d -> bits sr -> bits gs -> Forall root_ok h ->
  Forall (fun p => root_rand p <= Z.of_nat d) h -> 1 <= k ->
  (forall t, nth t gs 0 = 1 -> nth t os 0 = 0 -> 2 <= k) ->
  Z.of_nat (S d) + k <= p2 d - 1 ->
  forall B, acc = p2 d + B -> 0 <= B -> B + last_one sr <= Z.of_nat (S d) + k ->
  forall t, (t <= length h)%nat ->
    0 <= B + root_balance h (root_fed (S d) sr h gs os) os t <= Z.of_nat (S d) + k /\
    ((t < length h)%nat -> nth t os 0 = b2z (0 <? B + root_balance h (root_fed (S d) sr h gs os) os t)).
Proof.
  intros H. induction H as [sr acc|sr acc r u x h g gs os o H IH]; intros L Hs Hg Hh Hr Hk Hgo Hd B EB HB HI t Ht.
  - pose proof (last_one_bounds sr). cbn [length] in Ht. replace t with 0%nat by lia. rewrite root_balance_0. split; [lia|cbn; lia].
  - pose proof (last_one_bounds sr) as Hl. assert (Ha : 0 <= acc < p2 (S d)) by (rewrite p2_S; pose proof (p2_pos d); lia).
    pose proof (oroot_out_bit d acc Ha) as Ho. fold o in Ho. pose proof (Forall_inv Hh) as (Hr0 & Hu & Hx).
    pose proof (Forall_inv Hr) as Hr1. cbn [root_rand root_unknown root_in fst snd] in Hr0, Hr1, Hu, Hx.
    assert (Eo : o = b2z (0 <? B)).
    { unfold o. rewrite oroot_out_law by exact Ha. f_equal. destruct (Z.ltb_spec (p2 d) acc), (Z.ltb_spec 0 B); lia. }
    destruct t as [|t]; [rewrite root_balance_0, Z.add_0_r; split; [lia|intros _; exact Eo]|].
    assert (Hp : bit (nth (Z.to_nat r) sr u)) by (apply nth_bits; assumption).
    assert (Hp1 : nth (Z.to_nat r) sr u = 1 -> 1 <= last_one sr) by (intros E; apply (last_one_nth sr (Z.to_nat r) ltac:(lia) u E)).
    pose proof (Forall_inv Hg) as Hg0. pose proof (Hgo 0%nat) as Hgo0. cbn [nth] in Hgo0. set (p := nth (Z.to_nat r) sr u) in *.
    set (e := Z.land g p) in *.
    assert (He : bit e) by (apply land_bit_b; assumption).
    assert (He1 : e = 1 -> p = 1 /\ g = 1) by (unfold e; intros E; destruct Hg0 as [-> | ->], Hp as [-> | ->]; cbn in E; try discriminate; split; reflexivity).
    assert (HB' : 0 <= B + (x + e - o)) by (rewrite Eo; unfold b2z; destruct (Z.ltb_spec 0 B); destruct Hx as [-> | ->], He as [E | E]; lia).
    assert (HI' : B + (x + e - o) + last_one (tl sr ++ [1 - o]) <= Z.of_nat (S d) + k).
    { destruct Ho as [Z0|Z1].
      - pose proof (last_one_bounds (tl sr ++ [1 - o])) as Hb. rewrite (sr_next_length sr (S d) o ltac:(lia) L) in Hb.
        rewrite Z0 in Eo. unfold b2z in Eo. destruct (Z.ltb_spec 0 B); [discriminate|].
        destruct He as [E|E]; [destruct Hx as [-> | ->]; lia|]. specialize (Hgo0 (proj2 (He1 E)) Z0). destruct Hx as [-> | ->]; lia.
      - rewrite Z1. change (1 - 1) with 0. rewrite last_one_snoc0. pose proof (last_one_tl sr) as Ht'.
        destruct He as [E|E]; [destruct Hx as [-> | ->]; lia|]. specialize (Hp1 (proj1 (He1 E))). destruct Hx as [-> | ->]; lia. }
    pose proof (last_one_bounds (tl sr ++ [1 - o])) as Hl'.
    assert (Et : trunc (S d) (acc + (x + e) - o) = p2 d + (B + (x + e - o))).
    { unfold trunc. rewrite Z.mod_small; [lia|]. rewrite p2_S. lia. }
    cbn [length] in Ht.
    rewrite root_fed_cons by lia. fold p. fold e. rewrite root_balance_cons by assumption.
    specialize (IH (sr_next_length sr (S d) o ltac:(lia) L) (sr_next_bits sr o Hs Ho) (Forall_inv_tail Hg) (Forall_inv_tail Hh) (Forall_inv_tail Hr) Hk
      (fun t => Hgo (S t)) Hd _ Et HB' HI' t ltac:(lia)).
    unfold root_in. cbn [snd nth length].
    replace (B + (x + e - o + root_balance h (root_fed (S d) (tl sr ++ [1 - o]) h gs os) os t)) with
      (B + (x + e - o) + root_balance h (root_fed (S d) (tl sr ++ [1 - o]) h gs os) os t) by lia.
    destruct IH as [I1 I2]. split; [exact I1|]. intros Hlt. apply I2. lia.
Qed.

Lemma root_start_init dep : oroot_sr_init dep = root_start dep.
Proof.
  unfold oroot_sr_init, root_start. apply map_ext. intros i.
  change 2 with (Z.of_nat 2). rewrite <- (Nat2Z.inj_mod i 2). destruct (Nat.even i) eqn:E.
  - apply Nat.even_spec in E. destruct E as [k ->]. rewrite Nat.mul_comm, Nat.mod_mul by lia. reflexivity.
  - assert (O : Nat.odd i = true) by (unfold Nat.odd; rewrite E; reflexivity). apply Nat.odd_spec in O. destruct O as [k ->].
    rewrite Nat.add_comm, Nat.mul_comm, Nat.mod_add by lia. reflexivity.
Qed.
Lemma root_start_bits dep : bits (root_start dep).
Proof. apply Forall_map. apply Forall_forall. intros i _. destruct (Nat.even i); [left|right]; reflexivity. Qed.
Lemma root_start_length dep : length (root_start dep) = dep.
Proof. unfold root_start. now rewrite map_length, seq_length. Qed.
Lemma oroot_law_bits d sr acc h gs os : oroot_law d sr acc h gs os -> 0 <= acc < p2 (S d) -> bits os.
Proof.
  induction 1 as [|sr acc r u x h g gs os o H IH]; intros Ha; [constructor|]. constructor; [apply oroot_out_bit; exact Ha|].
  apply IH. apply Z.mod_pos_bound. apply p2_pos.
Qed.
Lemma p2_mid d : 0 <= p2 d < p2 (S d).
Proof. rewrite p2_S. pose proof (p2_pos d). lia. Qed.
Lemma p2_wrap_pos d B : (p2 d <? (p2 d + B) mod p2 (S d)) = ((1 <=? B mod p2 (S d)) && (B mod p2 (S d) <? p2 d)).
Proof.
  pose proof (p2_pos d) as Hp. rewrite <- Zplus_mod_idemp_r. pose proof (Z.mod_pos_bound B (p2 (S d)) (p2_pos _)) as Hb.
  set (m := B mod p2 (S d)) in *. clearbody m. pose proof (p2_S d) as E2.
  destruct (Z.lt_ge_cases m (p2 d)) as [L|G].
  - rewrite Z.mod_small by lia. destruct (Z.ltb_spec (p2 d) (p2 d + m)), (Z.leb_spec 1 m), (Z.ltb_spec m (p2 d)); cbn; lia.
  - replace (p2 d + m) with ((m - p2 d) + 1 * p2 (S d)) by lia. rewrite Z.mod_add, Z.mod_small by lia.
    destruct (Z.ltb_spec (p2 d) (m - p2 d)), (Z.leb_spec 1 m), (Z.ltb_spec m (p2 d)); cbn; lia.
Qed.
Lemma oroot_u_start d : bisqrt_o_u_init d = (root_start (S d), p2 d).
Proof. unfold bisqrt_o_u_init. rewrite root_start_init. reflexivity. Qed.
Lemma oroot_b_start d : bisqrt_o_b_init d = (root_start (S d), bi2uni_rtl_init 2, p2 d).
Proof. unfold bisqrt_o_b_init. rewrite root_start_init. reflexivity. Qed.
Lemma bi2uni_outs_bits d xs : forall a, bits (outs (bi2uni_rtl d) a xs).
Proof. induction xs as [|x xs IH]; intros a; [constructor|]. rewrite outs_cons. constructor; [apply bi2uni_rtl_bit|apply IH]. Qed.

Lemma oroot_u_outs d h : Forall root_ok h ->
  let os := outs (bisqrt_o_u d) (bisqrt_o_u_init d) h in
  let es := root_fed (S d) (root_start (S d)) h os os in
  length os = length h /\ forall t, (t < length h)%nat ->
  nth t os 0 = b2z ((1 <=? root_balance h es os t mod p2 (S d)) && (root_balance h es os t mod p2 (S d) <? p2 d)).
Proof.
  rewrite oroot_u_start. intros Hh os es. split; [apply outs_length|]. intros t Ht.
  pose proof (oroot_u_law d h (root_start (S d)) (p2 d)) as H. fold os in H.
  rewrite <- p2_wrap_pos. exact (oroot_law_outs _ _ _ _ _ _ H (root_start_length _) (root_start_bits _) (oroot_law_bits _ _ _ _ _ _ H (p2_mid d)) Hh (p2_mid d) t Ht).
Qed.
Lemma oroot_b_outs d h : Forall root_ok h ->
  let os := outs (bisqrt_o_b d) (bisqrt_o_b_init d) h in
  let es := root_fed (S d) (root_start (S d)) h (outs (bi2uni_rtl 2) (bi2uni_rtl_init 2) os) os in
  length os = length h /\ forall t, (t < length h)%nat ->
  nth t os 0 = b2z ((1 <=? root_balance h es os t mod p2 (S d)) && (root_balance h es os t mod p2 (S d) <? p2 d)).
Proof.
  rewrite oroot_b_start. intros Hh os es. split; [apply outs_length|]. intros t Ht.
  pose proof (oroot_b_law d h (root_start (S d)) (bi2uni_rtl_init 2) (p2 d)) as H. fold os in H.
  rewrite <- p2_wrap_pos. exact (oroot_law_outs _ _ _ _ _ _ H (root_start_length _) (root_start_bits _) (bi2uni_outs_bits _ _ _) Hh (p2_mid d) t Ht).
Qed.

Lemma p2_room d : (3 <= d)%nat -> Z.of_nat d + 4 <= p2 d.
Proof. intros H. induction H as [|d H IH]; [cbn; lia|]. rewrite p2_S. lia. Qed.
Lemma oroot_u_bound d h : (3 <= d)%nat -> Forall root_ok h -> Forall (fun p => root_rand p <= Z.of_nat d) h ->
  let os := outs (bisqrt_o_u d) (bisqrt_o_u_init d) h in
  let es := root_fed (S d) (root_start (S d)) h os os in
  forall t, (t <= length h)%nat -> 0 <= root_balance h es os t <= Z.of_nat d + 2 /\
  ((t < length h)%nat -> nth t os 0 = b2z (0 <? root_balance h es os t)).
Proof.
  rewrite oroot_u_start. intros Hd Hh Hr os es t Ht. pose proof (oroot_u_law d h (root_start (S d)) (p2 d)) as H. fold os in H.
  pose proof (p2_room d Hd). pose proof (last_one_bounds (root_start (S d))) as Hl. rewrite root_start_length in Hl.
  pose proof (oroot_law_bound d 1 _ _ _ _ _ H (root_start_length _) (root_start_bits _) (oroot_law_bits _ _ _ _ _ _ H (p2_mid d)) Hh Hr ltac:(lia)
    ltac:(intros u E1 E2; rewrite E1 in E2; discriminate) ltac:(lia) 0 ltac:(lia) ltac:(lia) ltac:(lia) t Ht) as G.
  fold es in G. rewrite Z.add_0_l in G. destruct G as [G1 G2]. split; [lia|exact G2].
Qed.
Lemma oroot_b_bound d h : (3 <= d)%nat -> Forall root_ok h -> Forall (fun p => root_rand p <= Z.of_nat d) h ->
  let os := outs (bisqrt_o_b d) (bisqrt_o_b_init d) h in
  let es := root_fed (S d) (root_start (S d)) h (outs (bi2uni_rtl 2) (bi2uni_rtl_init 2) os) os in
  forall t, (t <= length h)%nat -> 0 <= root_balance h es os t <= Z.of_nat d + 3 /\
  ((t < length h)%nat -> nth t os 0 = b2z (0 <? root_balance h es os t)).
Proof.
  rewrite oroot_b_start. intros Hd Hh Hr os es t Ht. pose proof (oroot_b_law d h (root_start (S d)) (bi2uni_rtl_init 2) (p2 d)) as H. fold os in H.
  pose proof (p2_room d Hd). pose proof (last_one_bounds (root_start (S d))) as Hl. rewrite root_start_length in Hl.
  pose proof (oroot_law_bound d 2 _ _ _ _ _ H (root_start_length _) (root_start_bits _) (bi2uni_outs_bits _ _ _) Hh Hr ltac:(lia)
    ltac:(intros u E1 E2; lia) ltac:(lia) 0 ltac:(lia) ltac:(lia) ltac:(lia) t Ht) as G.
  fold es in G. rewrite Z.add_0_l in G. destruct G as [G1 G2]. split; [lia|exact G2].
Qed.

(** Past the first DEP clocks, what is added less what is emitted is the input less the product of the output and an output before. *)
Lemma ones_firstn_S l t : bits l -> (t < length l)%nat -> ones (firstn (S t) l) = ones (firstn t l) + nth t l 0.
Proof.
  intros Hl. revert t. induction Hl as [|x l Hx Hl IH]; intros t Ht; cbn [length] in Ht; [lia|].
  destruct t as [|t]; [cbn [firstn nth]; rewrite (ones_cons_bit x []) by exact Hx; change (ones []) with 0; lia|].
  change (firstn (S (S t)) (x :: l)) with (x :: firstn (S t) l). change (firstn (S t) (x :: l)) with (x :: firstn t l). cbn [nth].
  rewrite !ones_cons_bit by exact Hx. rewrite IH by lia. lia.
Qed.
Lemma root_balance_S h es os t : Forall root_ok h -> bits es -> bits os -> length es = length h -> length os = length h -> (t < length h)%nat ->
  root_balance h es os (S t) = root_balance h es os t + (root_in (nth t h (0, 0, 0)) + nth t es 0 - nth t os 0).
Proof.
  intros Hh He Ho Le Lo Ht. unfold root_balance. rewrite !(ones_firstn_S es), !(ones_firstn_S os) by (assumption || lia).
  rewrite <- !firstn_map. rewrite ones_firstn_S.
  - change 0 with (root_in (0, 0, 0)) at 1. rewrite map_nth. lia.
  - apply Forall_map. eapply Forall_impl; [|exact Hh]. intros q (_ & _ & H). exact H.
  - rewrite map_length. exact Ht.
Qed.
Lemma Forall_skipn' {A} (P : A -> Prop) k l : Forall P l -> Forall P (skipn k l).
Proof. intros H. rewrite <- (firstn_skipn k l) in H. apply Forall_app in H. apply H. Qed.
Lemma root_fed_bits dep sr h gs os : bits sr -> bits gs -> bits os -> Forall root_ok h -> bits (root_fed dep sr h gs os).
Proof.
  intros Hs Hg Ho Hh. apply Forall_map. apply Forall_forall. intros t Ht. apply in_seq in Ht. apply land_bit_b.
  - apply nth_bits; [exact Hg|left; reflexivity].
  - unfold root_pick. apply nth_bits.
    + apply BaseLemmas.Forall_firstn, Forall_skipn'. apply Forall_app. split; [exact Hs|]. apply Forall_map. eapply Forall_impl; [|exact Ho].
      intros o [-> | ->]; [right|left]; reflexivity.
    + pose proof (proj1 (Forall_forall _ _) Hh (nth t h (0, 0, 0)) ltac:(apply nth_In; lia)) as (_ & H & _). exact H.
Qed.
Lemma nth_firstn_lt {A} (d : A) : forall l n i, (i < n)%nat -> nth i (firstn n l) d = nth i l d.
Proof. induction l as [|x l IH]; intros [|n] [|i] H; cbn [firstn nth]; try lia; try reflexivity. apply IH. lia. Qed.
Lemma root_pick_late dep sr (h : list (Z * Z * Z)) os t : length sr = dep -> length os = length h -> (dep <= t < length h)%nat ->
  (Z.to_nat (root_rand (nth t h (0, 0, 0)%Z)) < dep)%nat ->
  root_pick dep sr h os t = 1 - nth (t - dep + Z.to_nat (root_rand (nth t h (0, 0, 0)%Z))) os 0.
Proof.
  intros L Lo Ht Hr. unfold root_pick. set (r := Z.to_nat _) in *. rewrite nth_firstn_lt by exact Hr. rewrite nth_skipn'.
  rewrite app_nth2 by lia. rewrite L. replace (t + r - dep)%nat with (t - dep + r)%nat by lia.
  rewrite (nth_indep _ _ (1 - 0)) by (rewrite map_length; lia). exact (map_nth (fun o => 1 - o) os 0 _).
Qed.
Lemma root_balance_square dep sr h os : length sr = dep -> bits sr -> bits os -> length os = length h -> Forall root_ok h ->
  Forall (fun p => root_rand p < Z.of_nat dep) h ->
  forall n s, (dep <= s)%nat -> (s + n <= length h)%nat ->
  zsum (map (fun k => root_in (nth k h (0, 0, 0))) (seq s n)) -
  zsum (map (fun k => nth k os 0 * nth (k - dep + Z.to_nat (root_rand (nth k h (0, 0, 0)%Z))) os 0) (seq s n)) =
  root_balance h (root_fed dep sr h os os) os (s + n) - root_balance h (root_fed dep sr h os os) os s.
Proof.
  intros L Hs Ho Lo Hh Hr. induction n as [|n IH]; intros s Hd Hn; [rewrite Nat.add_0_r; cbn; lia|].
  rewrite seq_S, !map_app, !zsum_app, Nat.add_succ_r. rewrite root_balance_S; [|assumption|apply root_fed_bits; assumption|assumption
    |unfold root_fed; rewrite map_length, seq_length; reflexivity|assumption|lia].
  specialize (IH s Hd ltac:(lia)). cbn [map zsum].
  assert (Ee : nth (s + n) (root_fed dep sr h os os) 0 = Z.land (nth (s + n) os 0) (root_pick dep sr h os (s + n))).
  { unfold root_fed. set (f := fun t => _). rewrite (nth_indep _ _ (f 0%nat)) by (rewrite map_length, seq_length; lia).
    rewrite map_nth, seq_nth by lia. reflexivity. }
  pose proof (proj1 (Forall_forall _ _) Hr (nth (s + n) h (0, 0, 0)) ltac:(apply nth_In; lia)) as Hr'. cbv beta in Hr'.
  pose proof (proj1 (Forall_forall _ _) Hh (nth (s + n) h (0, 0, 0)) ltac:(apply nth_In; lia)) as (Hr0 & _ & _).
  rewrite Ee, root_pick_late by (assumption || lia).
  pose proof (nth_bits (s + n) os 0 Ho (or_introl eq_refl)) as B1.
  pose proof (nth_bits (s + n - dep + Z.to_nat (root_rand (nth (s + n) h (0, 0, 0)%Z))) os 0 Ho (or_introl eq_refl)) as B2.
  set (q := nth (s + n - dep + _) os 0) in *. set (o := nth (s + n) os 0) in *.
  assert (E : Z.land o (1 - q) = o - o * q) by (destruct B1 as [-> | ->], B2 as [-> | ->]; reflexivity).
  rewrite E. lia.
Qed.
Lemma oroot_u_square d h s n : (3 <= d)%nat -> Forall root_ok h -> Forall (fun p => root_rand p <= Z.of_nat d) h ->
  (S d <= s)%nat -> (s + n <= length h)%nat ->
  let os := outs (bisqrt_o_u d) (bisqrt_o_u_init d) h in
  Z.abs (zsum (map (fun k => root_in (nth k h (0, 0, 0))) (seq s n)) -
    zsum (map (fun k => nth k os 0 * nth (k - S d + Z.to_nat (root_rand (nth k h (0, 0, 0)%Z))) os 0) (seq s n))) <= Z.of_nat d + 2.
Proof.
  intros Hd Hh Hr Hs Hn os. pose proof (oroot_u_bound d h Hd Hh Hr) as G. cbv zeta in G. fold os in G.
  assert (Ho : bits os).
  { unfold os. rewrite oroot_u_start. exact (oroot_law_bits _ _ _ _ _ _ (oroot_u_law d h _ _) (p2_mid d)). }
  rewrite (root_balance_square (S d) (root_start (S d))); [|apply root_start_length|apply root_start_bits|exact Ho|apply outs_length|exact Hh| |exact Hs|exact Hn].
  - pose proof (proj1 (G s ltac:(lia))). pose proof (proj1 (G (s + n)%nat Hn)). lia.
  - eapply Forall_impl; [|exact Hr]. intros p Hp. cbv beta in Hp |- *. lia.
Qed.

(** DEP = 3: four clocks on which the register is read where it holds a one drive the counter through its top, and reading the oldest entry
    from then on keeps it going round. *)
Definition oroot_block : list (Z * Z * Z) := repeat (0, 0, 1) 8.
Lemma oroot_u_round n :
  outs (bisqrt_o_u 2) ([0; 0; 0], 0) (concat (repeat oroot_block n)) = concat (repeat [0; 0; 0; 0; 0; 1; 1; 1] n).
Proof.
  induction n as [|n IH]; [reflexivity|]. cbn [repeat concat]. rewrite outs_app.
  replace (final (bisqrt_o_u 2) ([0; 0; 0], 0) oroot_block) with ([0; 0; 0], 0) by reflexivity. rewrite IH. reflexivity.
Qed.
Lemma oroot_u_wraps n :
  outs (bisqrt_o_u 2) (bisqrt_o_u_init 2) ([(0, 0, 1); (0, 0, 1); (1, 0, 1); (0, 0, 1)] ++ concat (repeat (repeat (0, 0, 1) 8) n)) =
  [0; 1; 1; 1] ++ concat (repeat [0; 0; 0; 0; 0; 1; 1; 1] n).
Proof.
  fold oroot_block. rewrite outs_app.
  replace (final (bisqrt_o_u 2) (bisqrt_o_u_init 2) [(0, 0, 1); (0, 0, 1); (1, 0, 1); (0, 0, 1)]) with ([0; 0; 0], 0) by reflexivity.
  rewrite oroot_u_round. reflexivity.
Qed.

(** A number past the register that reads a one on every clock of an input of ones: the counter goes up on every clock. *)
Lemma oroot_u_unknown d n t : (t < n)%nat ->
  nth t (outs (bisqrt_o_u d) (bisqrt_o_u_init d) (repeat (Z.of_nat (S d), 1, 1) n)) 0 =
  b2z ((1 <=? Z.of_nat t mod p2 (S d)) && (Z.of_nat t mod p2 (S d) <? p2 d)).
Proof.
  rewrite oroot_u_start. rewrite <- p2_wrap_pos.
  assert (G : forall n t sr acc, (t < n)%nat -> length sr = S d -> 0 <= acc < p2 (S d) ->
    nth t (outs (bisqrt_o_u d) (sr, acc) (repeat (Z.of_nat (S d), 1, 1) n)) 0 = b2z (p2 d <? (acc + Z.of_nat t) mod p2 (S d))).
  { clear n t. induction n as [|n IH]; intros t sr acc Ht L Ha; [lia|]. cbn [repeat]. rewrite outs_cons.
    assert (Step : bisqrt_o_u d (sr, acc) (Z.of_nat (S d), 1, 1) =
      ((tl sr ++ [1 - oroot_out d acc], trunc (S d) (acc + (1 + Z.land (oroot_out d acc) 1) - oroot_out d acc)), oroot_out d acc))
      by (unfold bisqrt_o_u; rewrite Nat2Z.id, nth_overflow by lia; reflexivity).
    rewrite Step. cbn [fst snd].
    destruct t as [|t]; cbn [nth].
    - rewrite oroot_out_law by exact Ha. rewrite Z.add_0_r, Z.mod_small by exact Ha. reflexivity.
    - rewrite IH; [|lia|apply sr_next_length; lia|apply Z.mod_pos_bound, p2_pos].
      unfold trunc. rewrite Zplus_mod_idemp_l. do 3 f_equal. destruct (oroot_out_bit d acc Ha) as [E|E]; rewrite E; cbn; lia. }
  intros Ht. apply G; [exact Ht|apply root_start_length|apply p2_mid].
Qed.
