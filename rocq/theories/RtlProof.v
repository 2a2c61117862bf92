(** Proofs about the RTL models and their relation to the Python models. *)
Require Import Verif.BaseLemmas Verif.GenModel Verif.ShuffleModel Verif.AddModel Verif.KernelModel Verif.DivModel
  Verif.LinearModel Verif.RtlModel.
Require Import Verif.GenProof Verif.SobolProof Verif.AddProof Verif.KernelProof Verif.LinearProof.
Open Scope Z_scope.

(** ** Simulation *)
Section Sim.
  Context {S1 S2 I O : Type}.
  Variables (f : S1 -> I -> S1 * O) (g : S2 -> I -> S2 * O) (P : I -> Prop).
  Lemma outs_sim (R : S1 -> S2 -> Prop) :
    (forall s1 s2 x, P x -> R s1 s2 -> R (fst (f s1 x)) (fst (g s2 x)) /\ snd (f s1 x) = snd (g s2 x)) ->
    forall xs s1 s2, Forall P xs -> R s1 s2 -> outs f s1 xs = outs g s2 xs.
  Proof.
    intros H. induction xs as [|x xs IH]; intros s1 s2 HP HR; [reflexivity|].
    rewrite !outs_cons. destruct (H s1 s2 x (Forall_inv HP) HR) as [H1 H2]. rewrite H2. f_equal.
    apply IH; [exact (Forall_inv_tail HP)|exact H1].
  Qed.
  Lemma outs_sim_delay (R : S1 -> S2 -> O -> Prop) :
    (forall s1 s2 o x, P x -> R s1 s2 o -> snd (f s1 x) = o /\ R (fst (f s1 x)) (fst (g s2 x)) (snd (g s2 x))) ->
    forall xs s1 s2 o, Forall P xs -> R s1 s2 o -> outs f s1 xs = delayed o (outs g s2 xs).
  Proof.
    intros H. induction xs as [|x xs IH]; intros s1 s2 o HP HR; [reflexivity|].
    rewrite !outs_cons. destruct (H s1 s2 o x (Forall_inv HP) HR) as [H1 H2]. rewrite H1.
    unfold delayed. cbn [length firstn]. f_equal. apply IH; [exact (Forall_inv_tail HP)|exact H2].
  Qed.
End Sim.

Lemma trunc_id n x : 0 <= x < p2 n -> trunc n x = x.
Proof. intros H. apply Z.mod_small, H. Qed.

(** ** SkewedSync *)
Lemma skewedsync_step_rtl dep cnt x : 0 <= cnt < p2 dep -> bitpair x ->
  skewedsync_rtl dep cnt x = skewedsync_step dep cnt x /\ 0 <= fst (skewedsync_step dep cnt x) < p2 dep.
Proof.
  intros Hc Hx. destruct x as [a b]. destruct Hx as [Ha Hb]. cbn [fst snd] in *.
  unfold skewedsync_rtl, skewedsync_step, red_and, red_or, zclamp, b2z. pose proof (p2_ge_1 dep) as Hp.
  destruct (Z.eqb_spec cnt (p2 dep - 1)) as [E1|E1]; destruct (Z.eqb_spec cnt 0) as [E2|E2];
  destruct Ha as [->| ->], Hb as [->| ->]; cbn [negb fst];
  repeat match goal with
         | |- context [Z.lxor ?a ?b =? 1] => let v := eval compute in (Z.lxor a b =? 1) in change (Z.lxor a b =? 1) with v
         | |- context [?a =? 1] => let v := eval compute in (a =? 1) in match v with true => change (a =? 1) with true | false => change (a =? 1) with false end
         end; cbv iota;
  rewrite ?trunc_id by lia; (split; [apply f_equal2; [lia|apply f_equal2; lia]|lia]).
Qed.

Lemma skewedsync_equiv dep h : Forall bitpair h ->
  outs (skewedsync_rtl dep) skewedsync_rtl_init h = outs (skewedsync_step dep) skewedsync_init h.
Proof.
  intros H. apply (outs_sim _ _ bitpair (fun a b => a = b /\ 0 <= b < p2 dep)); [|exact H|].
  - intros s1 s2 x Hx [-> Hr]. destruct (skewedsync_step_rtl dep s2 x Hr Hx) as [-> Hr']. auto.
  - split; [reflexivity|]. pose proof (p2_pos dep). unfold skewedsync_init. lia.
Qed.

(** ** Abs, Sign *)
Lemma bsel_top d x : 0 <= x < p2 (S d) -> bsel x d = b2z (x >=? p2 d).
Proof.
  rewrite p2_S. intros H. unfold bsel, b2z. pose proof (p2_pos d) as Hp.
  destruct (Z.geb_spec x (p2 d)) as [E|E].
  - replace (x / p2 d) with 1; [reflexivity|].
    apply (Z.div_unique x (p2 d) 1 (x - p2 d)); lia.
  - rewrite Z.div_small by lia. reflexivity.
Qed.

Lemma abs_counter d cnt x : 0 <= cnt < p2 (S d) -> bit x ->
  fst (abs_rtl d cnt x) = fst (fsusignabs_step d cnt x) /\ 0 <= fst (fsusignabs_step d cnt x) < p2 (S d).
Proof.
  intros Hc Hx. unfold abs_rtl, fsusignabs_step, red_and, red_or, zclamp. cbn [fst].
  destruct Hx as [->| ->]; cbn [Z.eqb Pos.eqb andb];
  destruct (Z.eqb_spec cnt (p2 (S d) - 1)) as [E1|E1]; destruct (Z.eqb_spec cnt 0) as [E2|E2]; cbn [negb];
  rewrite ?trunc_id by lia; lia.
Qed.

Lemma abs_rtl_outs d xs : bits xs -> forall cnt o, 0 <= cnt < p2 (S d) -> o = b2z (cnt <? p2 d) ->
  outs (abs_rtl d) cnt xs =
  map2 (fun s x => (s, Z.lxor x s)) (delayed o (map fst (outs (fsusignabs_step d) cnt xs))) xs.
Proof.
  induction xs as [|x xs IH]; intros Hb cnt o Hc Ho; [reflexivity|].
  pose proof (Forall_inv Hb) as Hx. destruct (abs_counter d cnt x Hc Hx) as [E Hr].
  rewrite !outs_cons. cbn [map]. unfold delayed. cbn [length firstn map2]. f_equal.
  - unfold abs_rtl. cbn [snd]. rewrite bsel_top by exact Hc.
    assert (bnot (b2z (cnt >=? p2 d)) = o) as -> by (subst o; unfold bnot, b2z; destruct (Z.geb_spec cnt (p2 d)), (Z.ltb_spec cnt (p2 d)); lia).
    reflexivity.
  - rewrite E. apply (IH (Forall_inv_tail Hb)); [exact Hr|]. reflexivity.
Qed.

Lemma abs_equiv d xs : bits xs ->
  outs (abs_rtl d) (abs_rtl_init d) xs =
  map2 (fun s x => (s, Z.lxor x s)) (delayed 0 (map fst (outs (fsusignabs_step d) (fsusignabs_init d) xs))) xs.
Proof.
  intros H. apply abs_rtl_outs; [exact H| |].
  - unfold fsusignabs_init. rewrite p2_S. pose proof (p2_pos d). lia.
  - unfold fsusignabs_init. rewrite Z.ltb_irrefl. reflexivity.
Qed.

Lemma sign_equiv d xs : bits xs ->
  outs (sign_rtl d) (abs_rtl_init d) xs = delayed 0 (map fst (outs (fsusignabs_step d) (fsusignabs_init d) xs)).
Proof.
  intros H. assert (E : forall cnt, outs (sign_rtl d) cnt xs = map fst (outs (abs_rtl d) cnt xs)).
  { clear H. induction xs as [|x xs IH]; intros cnt; [reflexivity|]. rewrite !outs_cons. cbn [map].
    assert (S : sign_rtl d cnt x = (fst (abs_rtl d cnt x), fst (snd (abs_rtl d cnt x)))).
    { unfold sign_rtl. destruct (abs_rtl d cnt x) as [c [s a]]. reflexivity. }
    rewrite S. cbn [fst snd]. f_equal. apply IH. }
  rewrite E, abs_equiv by exact H.
  set (l := delayed 0 _). assert (Hl : length l = length xs).
  { unfold l, delayed. rewrite firstn_length. cbn [length]. rewrite map_length, outs_length. lia. }
  clearbody l. revert l Hl. clear. induction xs as [|x xs IH]; intros [|s l] Hl; try discriminate; [reflexivity|].
  cbn [map2 map fst]. f_equal. apply IH. injection Hl as Hl. exact Hl.
Qed.

Lemma signabs_snd d xs : bits xs -> forall cnt, map snd (outs (fsusignabs_step d) cnt xs) =
  map2 (fun s x => Z.lxor x s) (map fst (outs (fsusignabs_step d) cnt xs)) xs.
Proof.
  intros _. induction xs as [|x xs IH]; intros cnt; [reflexivity|]. rewrite outs_cons. cbn [map map2]. f_equal.
  - unfold fsusignabs_step. cbn [fst snd]. apply Z.lxor_comm.
  - apply IH.
Qed.

Lemma lxor_inj_r x a b : Z.lxor x a = Z.lxor x b -> a = b.
Proof.
  intros H. apply (f_equal (Z.lxor x)) in H. rewrite <- !Z.lxor_assoc, Z.lxor_nilpotent, !Z.lxor_0_l in H. exact H.
Qed.

Lemma differences_lxor a b xs : length a = length xs -> length b = length xs ->
  differences (map2 (fun s x => Z.lxor x s) a xs) (map2 (fun s x => Z.lxor x s) b xs) = differences a b.
Proof.
  revert a b. induction xs as [|x xs IH]; intros [|s a] [|u b] Ha Hb; try discriminate; [reflexivity|].
  cbn [map2 differences]. rewrite IH by (cbn [length] in *; lia). f_equal.
  destruct (Z.eqb_spec s u) as [->|E]; [rewrite Z.eqb_refl; reflexivity|].
  destruct (Z.eqb_spec (Z.lxor x s) (Z.lxor x u)) as [E'|E']; [|reflexivity]. exfalso. apply E, (lxor_inj_r x), E'.
Qed.

Lemma delayed_length {A} (d : A) l : length (delayed d l) = length l.
Proof. unfold delayed. rewrite firstn_length. cbn [length]. lia. Qed.

Lemma map_snd_map2 a xs : map snd (map2 (fun s x => (s, Z.lxor x s)) a xs) = map2 (fun s x => Z.lxor x s) a xs.
Proof. revert xs. induction a as [|s a IH]; intros [|x xs]; try reflexivity. cbn [map2 map snd]. f_equal. apply IH. Qed.

Lemma abs_differences d xs : bits xs ->
  let signs := map fst (outs (fsusignabs_step d) (fsusignabs_init d) xs) in
  differences (map snd (outs (abs_rtl d) (abs_rtl_init d) xs)) (map snd (outs (fsusignabs_step d) (fsusignabs_init d) xs)) =
  differences (delayed 0 signs) signs.
Proof.
  intros H signs. rewrite abs_equiv, signabs_snd, map_snd_map2 by exact H. fold signs.
  apply differences_lxor; [rewrite delayed_length|]; unfold signs; rewrite map_length, outs_length; reflexivity.
Qed.

(** ** JKFF *)
Lemma jkff_equiv h : Forall bitpair h -> outs jkff_rtl jkff_rtl_init h = delayed 0 (outs jkff_step jkff_init h).
Proof.
  intros H. apply (outs_sim_delay _ _ bitpair (fun a b o => a = b /\ o = a /\ bit b)); [|exact H|].
  - intros s1 s2 o [J K] [HJ HK] (-> & -> & Hb). cbn [fst snd] in HJ, HK. split; [reflexivity|].
    unfold jkff_rtl, jkff_step. cbn [fst snd].
    destruct HJ as [->| ->], HK as [->| ->], Hb as [->| ->]; cbn; unfold bit; auto.
  - repeat split. left. reflexivity.
Qed.

(** ** Square root with the JK trace, unipolar *)
Lemma bisqrt_u_equiv rng xs : bits xs ->
  outputs (run_r (sqrt_trace_step Unipolar true rng) sqrt_trace_init xs) = Some (outs bisqrt_jk_u jkff_rtl_init xs).
Proof.
  assert (H : forall xs st jk, bits xs -> bit jk -> st_trace st = jk -> st_jk st = jk ->
    exists s', run_r (sqrt_trace_step Unipolar true rng) st xs = Ok (s', outs bisqrt_jk_u jk xs)).
  { clear xs. induction xs as [|x xs IH]; intros st jk Hb Hj E1 E2; [exists st; reflexivity|].
    assert (Hx : bit x) by exact (Forall_inv Hb).
    set (st' := {| st_trace := fst (bisqrt_jk_u jk x); st_b2u := st_b2u st; st_jk := fst (bisqrt_jk_u jk x);
                   st_kn := st_kn st; st_dff := st_dff st |}).
    assert (E : sqrt_trace_step Unipolar true rng st x = Ok (st', snd (bisqrt_jk_u jk x))).
    { unfold sqrt_trace_step, sqrt_unipolar_trace. rewrite E1, E2. unfold st'.
      destruct Hx as [->| ->], Hj as [->| ->]; reflexivity. }
    cbn [run_r]. rewrite E, outs_cons.
    assert (Hj' : bit (fst (bisqrt_jk_u jk x))) by (destruct Hx as [->| ->], Hj as [->| ->]; unfold bit; cbn; auto).
    destruct (IH st' _ (Forall_inv_tail Hb) Hj' eq_refl eq_refl) as [s' Es]. rewrite Es. exists s'. reflexivity. }
  intros Hb. destruct (H xs sqrt_trace_init 0 Hb (or_introl eq_refl) eq_refl eq_refl) as [s' E].
  rewrite E. reflexivity.
Qed.

(** ** CORDIV kernel *)
Lemma cordiv_rtl_state dep h : (0 < dep)%nat ->
  final cordiv_rtl (cordiv_rtl_init dep) h = recent dep (outs cordiv_rtl (cordiv_rtl_init dep) h).
Proof.
  intros Hd. induction h as [|x h IH] using rev_ind.
  - unfold final, outs, recent. cbn [run fst snd]. rewrite app_nil_r, lastn_all by (unfold alternating; rewrite map_length, seq_length; lia).
    reflexivity.
  - rewrite final_snoc, outs_snoc, IH. destruct x as [[r a] b].
    set (os := outs cordiv_rtl (cordiv_rtl_init dep) h). clearbody os. clear IH.
    unfold cordiv_rtl. cbn [fst snd].
    set (q := if b =? 1 then a else _). clearbody q. unfold recent. rewrite app_assoc, lastn_snoc; [reflexivity| |exact Hd].
    rewrite app_length. unfold alternating. rewrite map_length, seq_length. lia.
Qed.

Lemma cordiv_rtl_outs dep h t : (0 < dep)%nat -> (t < length h)%nat ->
  let qs := outs cordiv_rtl (cordiv_rtl_init dep) h in
  nth t qs 0 = let '(r, a, b) := nth t h (0, 0, 0) in
               if b =? 1 then a else nth (Z.to_nat r) (recent dep (firstn t qs)) 0.
Proof.
  intros Hd Ht qs. unfold qs at 1. rewrite (outs_nth _ _ h t (0, 0, 0) 0 Ht), (cordiv_rtl_state dep (firstn t h) Hd).
  rewrite outs_firstn. fold qs. unfold cordiv_rtl. destruct (nth t h (0, 0, 0)) as [[r a] b]. reflexivity.
Qed.

Lemma iscbdiv_split dep_sync rs h : Forall bitpair h -> length rs = length h -> forall cnt sr, 0 <= cnt < p2 dep_sync ->
  outs (iscbdiv_u dep_sync) (cnt, sr) (map2 (fun r p => (r, fst p, snd p)) rs h) =
  outs cordiv_rtl sr (map2 (fun r p => (r, fst p, snd p)) rs (outs (skewedsync_step dep_sync) cnt h)).
Proof.
  revert rs. induction h as [|x h IH]; intros [|r rs] Hp Hl cnt sr Hc; try discriminate; [reflexivity|].
  destruct (skewedsync_step_rtl dep_sync cnt x Hc (Forall_inv Hp)) as [E Hr].
  rewrite (outs_cons (skewedsync_step dep_sync)). cbn [map2]. rewrite !outs_cons.
  assert (S : iscbdiv_u dep_sync (cnt, sr) (r, fst x, snd x) =
    ((fst (skewedsync_step dep_sync cnt x), fst (cordiv_rtl sr (r, fst (snd (skewedsync_step dep_sync cnt x)), snd (snd (skewedsync_step dep_sync cnt x))))),
     snd (cordiv_rtl sr (r, fst (snd (skewedsync_step dep_sync cnt x)), snd (snd (skewedsync_step dep_sync cnt x)))))).
  { unfold iscbdiv_u. rewrite <- surjective_pairing, E. destruct (skewedsync_step dep_sync cnt x) as [c' [u v]]. cbn [fst snd].
    destruct (cordiv_rtl sr (r, u, v)) as [sr' q]. reflexivity. }
  rewrite S. cbn [fst snd]. f_equal. apply IH; [exact (Forall_inv_tail Hp)|cbn [length] in Hl; lia|exact Hr].
Qed.

(** ** Uni2Bi *)
Lemma uni2bi_equiv d2 xs : (2 <= d2)%nat -> bits xs ->
  outs uni2bi_rtl uni2bi_rtl_init xs = delayed 0 (outs (uni2bi_step d2) uni2bi_init xs).
Proof.
  intros Hd H. apply (outs_sim_delay _ _ bit (fun a b o => 0 <= a < 4 /\ b = bsel a 0 /\ o = bsel a 1)); [|exact H|].
  - intros s1 s2 o x Hx (Hr & -> & ->). split; [reflexivity|].
    assert (4 <= p2 d2) by (change 4 with (p2 2); apply p2_le, Hd).
    assert (Hc : s1 = 0 \/ s1 = 1 \/ s1 = 2 \/ s1 = 3) by lia.
    unfold uni2bi_rtl, uni2bi_step, zclamp. cbn [fst snd zsum].
    destruct Hx as [->| ->]; destruct Hc as [->|[->|[->| ->]]];
    match goal with |- context [Z.max ?a _] => let v := eval compute in a in change a with v end;
    rewrite Z.max_l by lia; rewrite Z.min_l by lia; cbn; lia.
  - split; [unfold uni2bi_rtl_init; lia|split; reflexivity].
Qed.

(** ** Bi2Uni *)
Definition b2u_reg (d : nat) (c : Z) : Z := p2 d + c.
Lemma b2u_rtl_step d c x : (1 <= d)%nat -> - p2 d <= c < p2 d -> bit x ->
  bi2uni_rtl d (b2u_reg d c) x = (trunc (S d) (b2u_reg d (c - b2z (c >=? 1) + (2 * x - 1))), b2z (c >=? 1)).
Proof.
  intros Hd Hc Hx. unfold bi2uni_rtl, b2u_reg.
  rewrite bsel_top by (rewrite p2_S; lia).
  assert (E : Z.land (b2z (p2 d + c >=? p2 d)) (b2z (red_or (trunc d (p2 d + c)))) = b2z (c >=? 1)).
  { unfold red_or, trunc. pose proof (p2_pos d). 
    destruct (Z.geb_spec (p2 d + c) (p2 d)) as [E|E]; destruct (Z.geb_spec c 1) as [E'|E']; try lia.
    - replace (p2 d + c) with (c + 1 * p2 d) by lia. rewrite Z.mod_add, Z.mod_small by lia.
      destruct (Z.eqb_spec c 0); [lia|reflexivity].
    - replace (p2 d + c) with (c + 1 * p2 d) by lia. rewrite Z.mod_add, Z.mod_small by lia.
      destruct (Z.eqb_spec c 0); [reflexivity|lia].
    - cbn [b2z]. apply Z.land_0_l. }
  rewrite E. f_equal. f_equal. lia.
Qed.

Lemma b2u_equiv_gen d2 : let d := S d2 in forall xs c, bits xs -> - p2 d2 <= c <= 1 ->
  (forall j, - p2 d2 <= c - b2z (c >=? 1) + walk (firstn j xs)) ->
  (forall i j, - p2 d2 <= walk (firstn j (skipn i xs))) ->
  outs (bi2uni_rtl d) (b2u_reg d c) xs = delayed (b2z (c >=? 1)) (outs (bi2uni_step d2) (c - b2z (c >=? 1)) xs).
Proof.
  intros d. pose proof (p2_ge_1 d2) as Hp. induction xs as [|x xs IH]; intros c Hb Hc Hpre Hwin; [reflexivity|].
  pose proof (Forall_inv Hb) as Hx.
  assert (E2d : p2 d = 2 * p2 d2) by apply p2_S. assert (Hd : (1 <= d)%nat) by (unfold d; lia).
  rewrite !outs_cons. rewrite b2u_rtl_step by (try exact Hx; lia). cbn [fst snd].
  set (a := c - b2z (c >=? 1)) in *.
  assert (Ha : - p2 d2 <= a <= 0) by (unfold a, b2z; destruct (Z.geb_spec c 1); lia).
  set (c' := a + (2 * x - 1)).
  assert (Hc' : - p2 d2 <= c' <= 1).
  { pose proof (Hpre 1%nat) as H1. cbn [firstn] in H1. rewrite (walk_bit x Hx) in H1. unfold c'. destruct Hx as [->| ->]; lia. }
  assert (Es : bi2uni_step d2 a x = (c' - b2z (c' >=? 1), b2z (c' >=? 1))).
  { unfold bi2uni_step. replace (zclamp (- p2 d2) (p2 d2) (a + (x * 2 - 1))) with c' by (unfold zclamp, c'; fold c'; unfold c' in Hc'; lia).
    reflexivity. }
  rewrite Es. cbn [fst snd]. unfold delayed. cbn [length firstn]. f_equal.
  rewrite trunc_id by (unfold b2u_reg; rewrite p2_S; lia).
  apply (IH c' (Forall_inv_tail Hb) Hc').
  - intros j. unfold b2z. destruct (Z.geb_spec c' 1) as [E|E].
    + pose proof (Hwin 1%nat j) as H1. cbn [skipn] in H1. lia.
    + pose proof (Hpre (S j)) as H1. cbn [firstn] in H1. change (x :: firstn j xs) with ([x] ++ firstn j xs) in H1.
      rewrite walk_app, (walk_bit x Hx) in H1. unfold c'. lia.
  - intros i j. exact (Hwin (S i) j).
Qed.

Lemma bi2uni_equiv d2 xs : bits xs ->
  (forall i j, - p2 d2 <= walk (firstn j (skipn i xs))) ->
  outs (bi2uni_rtl (S d2)) (bi2uni_rtl_init (S d2)) xs = delayed 0 (outs (bi2uni_step d2) bi2uni_init xs).
Proof.
  intros Hb Hw. pose proof (b2u_equiv_gen d2 xs 0 Hb) as H. unfold b2u_reg in H. rewrite Z.add_0_r in H.
  apply H; [pose proof (p2_pos d2); lia| |exact Hw].
  intros j. cbn [Z.geb Z.compare b2z]. pose proof (Hw 0%nat j) as H1. cbn [skipn] in H1. lia.
Qed.

Lemma b2u_zeros d n : (1 <= d)%nat -> forall c, - p2 d <= c <= 0 -> Z.of_nat n <= c + p2 d ->
  final (bi2uni_rtl d) (b2u_reg d c) (repeat 0 n) = b2u_reg d (c - Z.of_nat n).
Proof.
  intros Hd. induction n as [|n IH]; intros c Hc Hn; [cbn [repeat]; rewrite Z.sub_0_r; reflexivity|].
  cbn [repeat]. rewrite final_cons, b2u_rtl_step by (try (left; reflexivity); pose proof (p2_pos d); lia). cbn [fst].
  destruct (Z.geb_spec c 1); [lia|]. cbn [b2z]. rewrite trunc_id by (unfold b2u_reg; rewrite p2_S; lia).
  rewrite IH by lia. f_equal. lia.
Qed.

Lemma b2u_wraps d : (1 <= d)%nat ->
  nth (S (2 ^ d)) (outs (bi2uni_rtl d) (bi2uni_rtl_init d) (repeat 0 (2 ^ d + 2))) 0 = 1.
Proof.
  intros Hd. pose proof (p2_pos d) as Hp.
  rewrite (outs_nth _ _ _ _ 0 0) by (rewrite repeat_length; lia).
  assert (firstn (S (2 ^ d)) (repeat 0 (2 ^ d + 2)) = repeat 0 (2 ^ d) ++ [0]) as ->.
  { rewrite repeat_app, firstn_app, repeat_length. rewrite firstn_all2 by (rewrite repeat_length; lia).
    replace (S (2 ^ d) - 2 ^ d)%nat with 1%nat by lia. reflexivity. }
  rewrite final_snoc. unfold bi2uni_rtl_init. change (p2 d) with (p2 d) at 1.
  pose proof (b2u_zeros d (2 ^ d) Hd 0 ltac:(lia) ltac:(rewrite p2_nat; lia)) as E.
  unfold b2u_reg in E. rewrite Z.add_0_r in E. rewrite E, p2_nat.
  replace (p2 d + (0 - p2 d)) with (b2u_reg d (- p2 d)) by (unfold b2u_reg; lia).
  rewrite b2u_rtl_step by (try (left; reflexivity); lia). cbn [fst].
  destruct (Z.geb_spec (- p2 d) 1); [lia|]. cbn [b2z].
  assert (E2 : trunc (S d) (b2u_reg d (- p2 d - 0 + (2 * 0 - 1))) = b2u_reg d (p2 d - 1)).
  { unfold trunc, b2u_reg. rewrite p2_S. symmetry. apply (Z.mod_unique _ _ (-1)); lia. }
  rewrite E2. 
  assert (2 <= p2 d) by (change 2 with (p2 1); apply p2_le, Hd).
  rewrite b2u_rtl_step by (try lia; rewrite nth_repeat; left; reflexivity). cbn [snd].
  destruct (Z.geb_spec (p2 d - 1) 1); [reflexivity|lia].
Qed.

Lemma b2u_zeros_py d2 n : forall a, - p2 d2 <= a <= 0 -> outs (bi2uni_step d2) a (repeat 0 n) = repeat 0 n.
Proof.
  induction n as [|n IH]; intros a Ha; [reflexivity|]. cbn [repeat]. rewrite outs_cons.
  pose proof (p2_pos d2) as Hp.
  assert (E : bi2uni_step d2 a 0 = (Z.max (a - 1) (- p2 d2), 0)).
  { unfold bi2uni_step, zclamp. destruct (Z.geb_spec (Z.min (Z.max (a + (0 * 2 - 1)) (- p2 d2)) (p2 d2)) 1); [lia|].
    cbn [b2z]. f_equal. lia. }
  rewrite E. cbn [fst snd]. f_equal. apply IH. lia.
Qed.

Lemma b2u_wrap_witness : forall d2, exists xs, bits xs /\ ones xs = 0 /\
  ones (outs (bi2uni_step d2) bi2uni_init xs) = 0 /\ 0 < ones (outs (bi2uni_rtl (S d2)) (bi2uni_rtl_init (S d2)) xs).
Proof.
  intros d2. exists (repeat 0 (2 ^ S d2 + 2)).
  assert (Hz : forall n, ones (repeat 0 n) = 0).
  { induction n as [|n IH]; [reflexivity|]. cbn [repeat]. rewrite ones_cons, IH. reflexivity. }
  split; [apply Forall_forall; intros x Hx; apply repeat_spec in Hx; left; exact Hx|].
  split; [apply Hz|]. split.
  - rewrite b2u_zeros_py; [apply Hz|]. unfold bi2uni_init. pose proof (p2_pos d2). lia.
  - pose proof (b2u_wraps (S d2) ltac:(lia)) as H. set (o := outs _ _ _) in *. set (k := S (2 ^ S d2)) in *.
    assert (Hk : (k < length o)%nat) by (destruct (Nat.lt_ge_cases k (length o)) as [L|G]; [exact L|];
      rewrite (nth_overflow o 0 G) in H; discriminate).
    destruct (nth_split o 0 Hk) as (l1 & l2 & E & _). rewrite E, ones_app, ones_cons, H.
    pose proof (ones_nonneg l1). pose proof (ones_nonneg l2). cbn [Z.eqb Pos.eqb]. lia.
Qed.

(** The bipolar square root: the flip-flop toggles on a one of the converted input and resets on a zero. *)
Lemma bi2uni_rtl_bit d a x : bit (snd (bi2uni_rtl d a x)).
Proof.
  unfold bi2uni_rtl. cbn [snd]. unfold bsel, b2z.
  destruct (red_or (trunc d a)); [|rewrite Z.land_0_r; left; reflexivity].
  assert (H := Z.mod_pos_bound (a / p2 d) 2 eq_refl). generalize dependent ((a / p2 d) mod 2). intros z Hz.
  assert (z = 0 \/ z = 1) as [->| ->] by lia; [left|right]; reflexivity.
Qed.
Lemma bisqrt_b_outs d xs : bits xs -> forall t, (t < length xs)%nat ->
  nth t (outs (bisqrt_jk_b d) (bisqrt_jk_b_init d) xs) 0 =
  (if fold_left (fun j u => if u =? 1 then 1 - j else 0) (firstn t (outs (bi2uni_rtl d) (bi2uni_rtl_init d) xs)) 0 =? 1
   then 1 else nth t xs 0).
Proof.
  intros Hb. change (bisqrt_jk_b_init d) with (0, bi2uni_rtl_init d).
  assert (G : forall xs a j, bits xs -> bit j -> forall t, (t < length xs)%nat ->
    nth t (outs (bisqrt_jk_b d) (j, a) xs) 0 =
    (if fold_left (fun j u => if u =? 1 then 1 - j else 0) (firstn t (outs (bi2uni_rtl d) a xs)) j =? 1 then 1 else nth t xs 0)).
  { clear xs Hb. induction xs as [|x xs IH]; intros a j Hb Hj t Ht; [cbn in Ht; lia|].
    apply Forall_cons_iff in Hb. destruct Hb as [Hx Hb]. rewrite !outs_cons.
    assert (Hu := bi2uni_rtl_bit d a x).
    assert (E : bisqrt_jk_b d (j, a) x =
      ((if snd (bi2uni_rtl d a x) =? 1 then 1 - j else 0, fst (bi2uni_rtl d a x)), if j =? 1 then 1 else x)).
    { unfold bisqrt_jk_b. destruct (bi2uni_rtl d a x) as [a' u]. cbn [fst snd] in *. unfold jkff_rtl. cbn [fst].
      f_equal. f_equal. destruct Hu as [->| ->]; [reflexivity|]. destruct Hj as [->| ->]; reflexivity. }
    rewrite E. cbn [fst snd]. destruct t as [|t]; [reflexivity|].
    cbn [nth firstn fold_left]. apply IH; [exact Hb| |cbn in Ht; lia].
    destruct Hu as [->| ->]; [left; reflexivity|]. destruct Hj as [->| ->]; [right|left]; reflexivity. }
  apply G; [exact Hb|left; reflexivity].
Qed.
