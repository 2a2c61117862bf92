(** Proofs about counters of /repo/hw that do not count what their modules are for. *)
Require Import Verif.BaseLemmas Verif.RtlMoreModel Verif.RtlMoreSpec.
Require Import Verif.RtlProof Verif.RtlRngProof Verif.RtlCountProof.
Open Scope Z_scope.

(** ** CORDIV_kernel_IS_U and CORDIV_kernel_IS_B *)
Lemma is_count_pm bw c x : bit x -> is_count bw c x = (c + pm x) mod p2 bw.
Proof. intros [-> | ->]; unfold is_count, trunc, pm; cbn [Z.eqb Pos.eqb]; f_equal; lia. Qed.
Lemma updown_snoc xs x : updown (xs ++ [x]) = updown xs + pm x.
Proof. unfold updown. rewrite map_app, zsum_app. cbn [map zsum]. lia. Qed.
Lemma is_u_state bw dep h : Forall (fun p => bit (is_a p) /\ bit (is_b p)) h ->
  fst (final (cordiv_is_u bw) (cordiv_is_init dep) h) = (updown (map is_a h) mod p2 bw, updown (map is_b h) mod p2 bw).
Proof.
  intros Hh. induction h as [|[[[r k] a] b] h IH] using rev_ind; [reflexivity|].
  apply Forall_app in Hh as [Hh H1]. destruct (Forall_inv H1) as [Ha Hb]. unfold is_a, is_b in Ha, Hb. cbn [fst snd] in Ha, Hb.
  rewrite final_snoc. specialize (IH Hh). destruct (final (cordiv_is_u bw) (cordiv_is_init dep) h) as [[ca cb] sr]. cbn [fst] in IH.
  injection IH as -> ->. unfold cordiv_is_u. destruct (cordiv_rtl sr _) as [sr' q]. cbn [fst].
  rewrite !is_count_pm by assumption. rewrite !map_app. cbn [map]. rewrite !updown_snoc. unfold is_a, is_b. cbn [fst snd].
  rewrite !Zplus_mod_idemp_l. reflexivity.
Qed.
Lemma is_b_state b dep h : Forall (fun p => bit (is_a p) /\ bit (is_b p)) h ->
  fst (final (cordiv_is_b b) (cordiv_is_init dep) h) = (updown (map is_a h) mod p2 (S b), updown (map is_b h) mod p2 (S b)).
Proof.
  intros Hh. induction h as [|[[[r k] a] x] h IH] using rev_ind; [reflexivity|].
  apply Forall_app in Hh as [Hh H1]. destruct (Forall_inv H1) as [Ha Hb]. unfold is_a, is_b in Ha, Hb. cbn [fst snd] in Ha, Hb.
  rewrite final_snoc. specialize (IH Hh). destruct (final (cordiv_is_b b) (cordiv_is_init dep) h) as [[ca cb] sr]. cbn [fst] in IH.
  injection IH as -> ->. unfold cordiv_is_b. destruct (cordiv_rtl sr _) as [sr' q]. cbn [fst].
  rewrite !is_count_pm by assumption. rewrite !map_app. cbn [map]. rewrite !updown_snoc. unfold is_a, is_b. cbn [fst snd].
  rewrite !Zplus_mod_idemp_l. reflexivity.
Qed.
Lemma is_u_outs bw dep h : Forall (fun p => bit (is_a p) /\ bit (is_b p)) h ->
  let ks := map (is_regen bw h) (seq 0 (length h)) in
  outs (cordiv_is_u bw) (cordiv_is_init dep) h = outs cordiv_rtl (cordiv_rtl_init dep) ks /\
  snd (final (cordiv_is_u bw) (cordiv_is_init dep) h) = final cordiv_rtl (cordiv_rtl_init dep) ks.
Proof.
  intros Hh. induction h as [|p h IH] using rev_ind; [split; reflexivity|]. cbv zeta in *.
  pose proof (is_u_state bw dep h (proj1 (proj1 (Forall_app _ _ _) Hh))) as Es.
  destruct (IH (proj1 (proj1 (Forall_app _ _ _) Hh))) as [E1 E2]. clear IH.
  rewrite app_length. cbn [length]. rewrite Nat.add_1_r, seq_S, map_app. cbn [map Nat.add].
  assert (Ek : map (is_regen bw (h ++ [p])) (seq 0 (length h)) = map (is_regen bw h) (seq 0 (length h))).
  { apply map_ext_in. intros t Ht. apply in_seq in Ht. unfold is_regen. rewrite app_nth1 by lia.
    rewrite firstn_app. replace (t - length h)%nat with 0%nat by lia. rewrite firstn_O, app_nil_r. reflexivity. }
  rewrite Ek. rewrite !outs_snoc, !final_snoc, <- E2, E1.
  destruct (final (cordiv_is_u bw) (cordiv_is_init dep) h) as [[ca cb] sr] eqn:Ef. cbn [fst snd] in *. injection Es as -> ->.
  destruct p as [[[r k] a] b].
  assert (EK : is_regen bw (h ++ [(r, k, a, b)]) (length h) =
    (k, b2z (updown (map is_a h) mod p2 bw >? r), b2z (updown (map is_b h) mod p2 bw >? r))).
  { unfold is_regen. rewrite app_nth2, Nat.sub_diag by lia. cbn [nth fst snd].
    rewrite firstn_app, Nat.sub_diag, firstn_O, app_nil_r, firstn_all. reflexivity. }
  rewrite EK. unfold cordiv_is_u. destruct (cordiv_rtl sr _) as [sr' q]. split; reflexivity.
Qed.
Lemma updown_repeat x n : updown (repeat x n) = Z.of_nat n * pm x.
Proof. unfold updown. rewrite map_repeat. induction n; [reflexivity|]. cbn [repeat zsum]. rewrite IHn, Nat2Z.inj_succ. lia. Qed.
(** 0 / 1 is 1 whenever the divisor is regenerated. *)
Lemma is_u_zero bw dep rs t : (t < length rs)%nat -> (0 < dep)%nat -> 2 * Z.of_nat (length rs) <= p2 bw ->
  let h := map (fun r => (r, 0, 0, 1)) rs in
  nth t rs 0 < Z.of_nat t -> nth t (outs (cordiv_is_u bw) (cordiv_is_init dep) h) 0 = 1.
Proof.
  intros Ht Hd Hl h Hr. assert (Lh : length h = length rs) by apply map_length.
  assert (Hh : Forall (fun p => bit (is_a p) /\ bit (is_b p)) h).
  { apply Forall_map, Forall_forall. intros r _. split; [left|right]; reflexivity. }
  destruct (is_u_outs bw dep h Hh) as [E _]. rewrite E, cordiv_rtl_outs by (try exact Hd; rewrite map_length, seq_length; lia).
  rewrite (nth_indep _ (0, 0, 0) (is_regen bw h 0)) by (rewrite map_length, seq_length; lia).
  rewrite map_nth, seq_nth by lia. cbn [Nat.add]. unfold is_regen.
  assert (Ft : firstn t h = map (fun r => (r, 0, 0, 1)) (firstn t rs)) by (unfold h; apply firstn_map).
  assert (Lt : length (firstn t rs) = t) by (rewrite firstn_length; lia).
  assert (Ea : map is_a (firstn t h) = repeat 0 t).
  { rewrite Ft, map_map. rewrite <- Lt at 2. generalize (firstn t rs) as l. induction l; [reflexivity|]. cbn [map length repeat]. f_equal. assumption. }
  assert (Eb : map is_b (firstn t h) = repeat 1 t).
  { rewrite Ft, map_map. rewrite <- Lt at 2. generalize (firstn t rs) as l. induction l; [reflexivity|]. cbn [map length repeat]. f_equal. assumption. }
  rewrite Ea, Eb, !updown_repeat. assert (En : nth t h (0, 0, 0, 0) = (nth t rs 0, 0, 0, 1)).
  { rewrite (nth_indep _ _ (0, 0, 0, 1)) by lia. exact (map_nth (fun r : Z => (r, 0, 0, 1)) rs 0 t). }
  rewrite En. cbn [fst snd]. change (pm 0) with (-1). change (pm 1) with 1. rewrite Z.mul_1_r.
  rewrite (Z.mod_small (Z.of_nat t)) by lia.
  destruct (Z.gtb_spec (Z.of_nat t) (nth t rs 0)); [|lia]. cbn [b2z Z.eqb Pos.eqb].
  assert (Em : (Z.of_nat t * -1) mod p2 bw >= Z.of_nat t).
  { destruct (Z.eq_dec (Z.of_nat t) 0) as [Z0|Z0]; [rewrite Z0; cbn [Z.mul]; rewrite Z.mod_0_l; lia|].
    replace (Z.of_nat t * -1) with (p2 bw - Z.of_nat t + (-1) * p2 bw) by lia. rewrite Z_mod_plus_full, Z.mod_small by lia. lia. }
  destruct (Z.gtb_spec ((Z.of_nat t * -1) mod p2 bw) (nth t rs 0)); [reflexivity|lia].
Qed.

Lemma signed_range b x : 0 <= x < p2 (S b) -> - p2 b <= signed b x < p2 b.
Proof. rewrite p2_S. intros H. unfold signed. destruct (Z.ltb_spec x (p2 b)); rewrite ?p2_S; lia. Qed.
Lemma is_sign_signed b x : 0 <= x < p2 (S b) -> is_sign b x = b2z (0 <=? signed b x).
Proof.
  intros H. unfold is_sign. rewrite bsel_top by exact H. unfold signed. rewrite p2_S in *. pose proof (p2_pos b). unfold bnot, b2z.
  destruct (Z.geb_spec x (p2 b)), (Z.ltb_spec x (p2 b)); try lia; destruct (Z.leb_spec 0 x), (Z.leb_spec 0 (x - 2 * p2 b)); lia.
Qed.
Lemma is_abs_signed b x : 0 <= x < p2 (S b) ->
  is_abs b x = if signed b x =? 0 then 0 else p2 (S b) - Z.abs (signed b x).
Proof.
  intros H. unfold is_abs. rewrite is_sign_signed by exact H. unfold signed. pose proof (p2_pos b) as Hp. pose proof (p2_S b) as E.
  destruct (Z.ltb_spec x (p2 b)).
  - destruct (Z.leb_spec 0 x); [|lia]. cbn [b2z Z.eqb Pos.eqb]. unfold trunc. destruct (Z.eqb_spec x 0) as [->|Hn]; [apply Z.mod_0_l; lia|].
    replace (0 - x) with (p2 (S b) - x + (-1) * p2 (S b)) by lia. rewrite Z_mod_plus_full, Z.mod_small by lia. lia.
  - destruct (Z.leb_spec 0 (x - p2 (S b))); [lia|]. cbn [b2z Z.eqb]. destruct (Z.eqb_spec (x - p2 (S b)) 0); lia.
Qed.
Lemma is_mag_spec b xs : is_abs b (updown xs mod p2 (S b)) = is_mag b (is_signed b xs).
Proof. apply is_abs_signed. apply Z.mod_pos_bound. pose proof (p2_pos (S b)). lia. Qed.
Lemma is_flip_spec b xs ys :
  Z.lxor (is_sign b (updown xs mod p2 (S b))) (is_sign b (updown ys mod p2 (S b))) = b2z (xorb (0 <=? is_signed b xs) (0 <=? is_signed b ys)).
Proof.
  pose proof (p2_pos (S b)). rewrite !is_sign_signed by (apply Z.mod_pos_bound; lia). fold (is_signed b xs) (is_signed b ys).
  destruct (0 <=? is_signed b xs), (0 <=? is_signed b ys); reflexivity.
Qed.
Lemma map2_snoc {A B C} (f : A -> B -> C) l m a c : length l = length m -> map2 f (l ++ [a]) (m ++ [c]) = map2 f l m ++ [f a c].
Proof. revert m. induction l as [|x l IH]; intros [|y m] H; try discriminate; [reflexivity|]. cbn [app map2]. rewrite IH by (injection H; auto). reflexivity. Qed.
Lemma is_b_outs b dep h : Forall (fun p => bit (is_a p) /\ bit (is_b p)) h ->
  let ks := map (is_regen_b b h) (seq 0 (length h)) in
  outs (cordiv_is_b b) (cordiv_is_init dep) h = map2 Z.lxor (outs cordiv_rtl (cordiv_rtl_init dep) ks) (map (is_flip b h) (seq 0 (length h))) /\
  snd (final (cordiv_is_b b) (cordiv_is_init dep) h) = final cordiv_rtl (cordiv_rtl_init dep) ks.
Proof.
  intros Hh. induction h as [|p h IH] using rev_ind; [split; reflexivity|]. cbv zeta in *.
  pose proof (is_b_state b dep h (proj1 (proj1 (Forall_app _ _ _) Hh))) as Es.
  destruct (IH (proj1 (proj1 (Forall_app _ _ _) Hh))) as [E1 E2]. clear IH.
  rewrite app_length. cbn [length]. rewrite Nat.add_1_r, seq_S, !map_app. cbn [map Nat.add].
  assert (Ek : map (is_regen_b b (h ++ [p])) (seq 0 (length h)) = map (is_regen_b b h) (seq 0 (length h))).
  { apply map_ext_in. intros t Ht. apply in_seq in Ht. unfold is_regen_b. rewrite app_nth1 by lia.
    rewrite firstn_app. replace (t - length h)%nat with 0%nat by lia. rewrite firstn_O, app_nil_r. reflexivity. }
  assert (Eg : map (is_flip b (h ++ [p])) (seq 0 (length h)) = map (is_flip b h) (seq 0 (length h))).
  { apply map_ext_in. intros t Ht. apply in_seq in Ht. unfold is_flip.
    rewrite firstn_app. replace (t - length h)%nat with 0%nat by lia. rewrite firstn_O, app_nil_r. reflexivity. }
  rewrite Ek, Eg. rewrite !outs_snoc, !final_snoc, <- E2, E1. rewrite map2_snoc by (rewrite outs_length, !map_length; reflexivity).
  destruct (final (cordiv_is_b b) (cordiv_is_init dep) h) as [[ca cb] sr] eqn:Ef. cbn [fst snd] in *. injection Es as -> ->.
  destruct p as [[[r k] a] x].
  assert (EK : is_regen_b b (h ++ [(r, k, a, x)]) (length h) =
    (k, b2z (is_mag b (is_signed b (map is_a h)) >? r), b2z (is_mag b (is_signed b (map is_b h)) >? r))).
  { unfold is_regen_b. rewrite app_nth2, Nat.sub_diag by lia. cbn [nth fst snd].
    rewrite firstn_app, Nat.sub_diag, firstn_O, app_nil_r, firstn_all. reflexivity. }
  rewrite EK. unfold cordiv_is_b, is_flip. rewrite firstn_app, Nat.sub_diag, firstn_O, app_nil_r, firstn_all. rewrite <- is_flip_spec, <- !is_mag_spec.
  destruct (cordiv_rtl sr _) as [sr' q]. cbn [fst snd]. rewrite Z.lxor_assoc. split; reflexivity.
Qed.

(** ** The old relu *)
Lemma relu_cnt d n x : 0 <= n -> bit x ->
  fst (relu_rtl d (Z.min (p2 (S (S d)) - 1) (p2 d + n)) x) = Z.min (p2 (S (S d)) - 1) (p2 d + (n + x)).
Proof.
  intros Hn Hx. pose proof (p2_pos d). pose proof (p2_S d). pose proof (p2_S (S d)). unfold relu_rtl, red_and, red_or. cbn [fst].
  set (c := Z.min _ (p2 d + n)). assert (Hc : 0 < c < p2 (S (S d))) by lia.
  destruct Hx as [-> | ->]; cbn [bnot Z.eqb Pos.eqb Z.sub Z.add Z.opp Z.pos_sub andb negb].
  - destruct (Z.eqb_spec c 0); [lia|]. cbn [negb andb]. unfold c. lia.
  - destruct (Z.eqb_spec c (p2 (S (S d)) - 1)); cbn [negb andb]; [unfold c in *; lia|]. rewrite trunc_id by lia. unfold c in *. lia.
Qed.
Lemma relu_out d n x : 0 <= n -> bit x ->
  snd (relu_rtl d (Z.min (p2 (S (S d)) - 1) (p2 d + n)) x) = if relu_gap d n then 0 else x.
Proof.
  intros Hn Hx. pose proof (p2_pos d). pose proof (p2_S d). pose proof (p2_S (S d)). unfold relu_rtl, relu_gap. cbn [snd].
  set (c := Z.min _ (p2 d + n)). assert (Hc : 0 < c < p2 (S (S d))) by lia. unfold bsel.
  assert (E : (c / p2 d) mod 2 = if (p2 d <=? n) && (n <? p2 (S d)) then 0 else 1).
  { destruct (Z.leb_spec (p2 d) n), (Z.ltb_spec n (p2 (S d))); cbn [andb]; try lia.
    - replace (c / p2 d) with 2; [reflexivity|]. apply Z.div_unique with (c - 2 * p2 d); unfold c; lia.
    - replace (c / p2 d) with 3; [reflexivity|]. apply Z.div_unique with (c - 3 * p2 d); unfold c; lia.
    - replace (c / p2 d) with 1; [reflexivity|]. apply Z.div_unique with (c - p2 d); unfold c; lia. }
  rewrite E. destruct (_ && _); reflexivity.
Qed.
Lemma relu_run d xs : bits xs -> forall n, 0 <= n ->
  outs (relu_rtl d) (Z.min (p2 (S (S d)) - 1) (p2 d + n)) xs =
    map (fun t => if relu_gap d (n + ones (firstn t xs)) then 0 else nth t xs 0) (seq 0 (length xs)) /\
  ones (outs (relu_rtl d) (Z.min (p2 (S (S d)) - 1) (p2 d + n)) xs) =
    ones xs - (zclamp 0 (p2 d) (n + ones xs - p2 d) - zclamp 0 (p2 d) (n - p2 d)).
Proof.
  pose proof (p2_pos d) as Hp. pose proof (p2_S d) as E.
  induction xs as [|x xs IH]; intros Hb n Hn; [split; [reflexivity|cbn [outs run snd]; change (ones []) with 0; rewrite Z.add_0_r; lia]|].
  pose proof (Forall_inv Hb) as Hx. assert (0 <= x) by (destruct Hx; lia).
  rewrite outs_cons, relu_cnt, relu_out by assumption.
  destruct (IH (Forall_inv_tail Hb) (n + x) ltac:(lia)) as [-> E2]. split.
  - cbn [length seq map firstn nth]. change (ones []) with 0. rewrite Z.add_0_r. f_equal. rewrite <- seq_shift, map_map.
    apply map_ext. intros t. cbn [firstn nth]. rewrite ones_cons_bit by exact Hx. rewrite Z.add_assoc. reflexivity.
  - rewrite ones_cons_bit by (destruct (relu_gap d n); [left; reflexivity|exact Hx]). rewrite E2, ones_cons_bit by exact Hx.
    unfold relu_gap, zclamp. pose proof (ones_nonneg xs).
    destruct Hx as [-> | ->], (Z.leb_spec (p2 d) n), (Z.ltb_spec n (p2 (S d))); cbn [andb]; lia.
Qed.
Lemma relu_outs d xs : bits xs ->
  outs (relu_rtl d) (relu_rtl_init d) xs =
    map (fun t => if relu_gap d (ones (firstn t xs)) then 0 else nth t xs 0) (seq 0 (length xs)) /\
  ones (outs (relu_rtl d) (relu_rtl_init d) xs) = ones xs - zclamp 0 (p2 d) (ones xs - p2 d).
Proof.
  intros Hb. pose proof (p2_pos d). pose proof (p2_S d). pose proof (p2_S (S d)).
  destruct (relu_run d xs Hb 0 ltac:(lia)) as [E1 E2]. unfold relu_rtl_init.
  replace (Z.min (p2 (S (S d)) - 1) (p2 d + 0)) with (p2 d) in * by lia. rewrite E1 at 1. rewrite E2. split; [reflexivity|].
  unfold zclamp. lia.
Qed.

(** ** The old square root *)
Lemma sqrt_old_step c o p : 32 <= c <= 63 -> bit (snd p) -> let s := sqrt_old (c, o) p in
  snd s = b2z (c >=? fst p) /\ c <= fst (fst s) <= 63 /\ fst (fst s) <= c + snd p.
Proof.
  destruct p as [r x]. intros Hc Hx. unfold sqrt_old. cbn [fst snd]. split; [reflexivity|]. unfold red_and, red_or. change (p2 6 - 1) with 63.
  cbn [fst snd] in Hx. destruct Hx as [-> | ->]; cbn [Z.eqb Pos.eqb andb negb].
  - destruct (Z.eqb_spec c 0); [lia|]. cbn [negb]. rewrite andb_false_r. lia.
  - destruct (negb (_ =? 1)); cbn [andb]; [|lia]. destruct (Z.eqb_spec c 63); cbn [negb]; [lia|]. rewrite trunc_id by (change (p2 6) with 64; lia). lia.
Qed.
Lemma sqrt_old_run h : Forall (fun p => bit (snd p)) h -> forall c o, 32 <= c <= 63 ->
  let os := outs sqrt_old (c, o) h in
  forall t, (t < length h)%nat -> nth t os 0 = 0 -> c < fst (nth t h (0, 0)) \/ 63 < fst (nth t h (0, 0)).
Proof.
  induction h as [|p h IH]; intros Hh c o Hc os t Ht E; [cbn [length] in Ht; lia|]. unfold os in E. rewrite outs_cons in E.
  destruct (sqrt_old_step c o p Hc (Forall_inv Hh)) as (E1 & E2 & _). cbv zeta in *. destruct (sqrt_old (c, o) p) as [[c' o'] y].
  cbn [fst snd] in *. destruct t as [|t]; cbn [nth] in *.
  - rewrite E1 in E. unfold b2z in E. destruct (Z.geb_spec c (fst p)); [discriminate|]. left. lia.
  - cbn [length] in Ht. destruct (IH (Forall_inv_tail Hh) c' o' ltac:(lia) t ltac:(lia) E); [left|right]; lia.
Qed.
Lemma sqrt_old_floor h t : Forall (fun p => bit (snd p)) h -> (t < length h)%nat ->
  fst (nth t h (0, 0)) <= 32 -> nth t (outs sqrt_old sqrt_old_init h) 0 = 1.
Proof.
  intros Hh Ht Hr. assert (G : bits (outs sqrt_old sqrt_old_init h)).
  { generalize sqrt_old_init as s. clear. induction h as [|[r x] h IH]; intros [c o]; [apply Forall_nil|]. rewrite outs_cons. constructor; [apply b2z_bit|apply IH]. }
  assert (B : bit (nth t (outs sqrt_old sqrt_old_init h) 0)) by (apply (proj1 (Forall_forall _ _) G), nth_In; rewrite outs_length; exact Ht).
  destruct B as [B|B]; [|exact B]. destruct (sqrt_old_run h Hh 32 0 ltac:(lia) t Ht B); lia.
Qed.
Lemma sqrt_old_zero h : Forall (fun p => snd p = 0) h -> forall o, outs sqrt_old (32, o) h = map (fun p => b2z (fst p <=? 32)) h.
Proof.
  induction h as [|[r x] h IH]; intros Hh o; [reflexivity|]. pose proof (Forall_inv Hh) as Hx. cbn [snd] in Hx. subst x.
  destruct (sqrt_old_step 32 o (r, 0) ltac:(lia) ltac:(left; reflexivity)) as (E1 & E2 & E3). cbv zeta in *. rewrite outs_cons, E1.
  cbn [map fst snd] in *. f_equal; [destruct (Z.geb_spec 32 r), (Z.leb_spec r 32); lia || reflexivity|].
  destruct (sqrt_old (32, o) (r, 0)) as [[c' o'] y]. cbn [fst snd] in *. replace c' with 32 by lia. apply IH, (Forall_inv_tail Hh).
Qed.

(** ** SkewedSyncInt *)
Lemma syncint_step d c i x : 0 <= c -> 0 <= i -> c + i < p2 (S d) -> bit x ->
  skewedsyncint_rtl d c (i, x) = (c + i, ((if x =? 1 then c + i else 0), x)).
Proof.
  intros Hc Hi Hs Hx. unfold skewedsyncint_rtl. pose proof (p2_S (S d)) as E.
  assert (B : forall y, 0 <= y < p2 (S d) -> bsel y (S d) = 0) by (intros y Hy; unfold bsel; rewrite Z.div_small by lia; reflexivity).
  rewrite (trunc_id (S (S d)) (c + i)) by lia. rewrite (B (c + i)) by lia. cbn [Z.eqb]. rewrite (trunc_id (S d) (c + i)) by lia.
  destruct Hx as [-> | ->]; cbn [Z.eqb Pos.eqb]; rewrite trunc_id by lia; rewrite B by lia; reflexivity.
Qed.
Lemma syncint_run d h : Forall (fun p => 0 <= fst p /\ bit (snd p)) h -> forall c, 0 <= c -> c + zsum (map fst h) < p2 (S d) ->
  outs (skewedsyncint_rtl d) c h =
    map (fun t => let x := snd (nth t h (0, 0)) in ((if x =? 1 then c + zsum (map fst (firstn (S t) h)) else 0), x)) (seq 0 (length h)).
Proof.
  assert (NN : forall l : list (Z * Z), Forall (fun p => 0 <= fst p /\ bit (snd p)) l -> 0 <= zsum (map fst l)).
  { induction l as [|p l IH]; intros Hl; [cbn; lia|]. cbn [map zsum]. destruct (Forall_inv Hl). specialize (IH (Forall_inv_tail Hl)). lia. }
  induction h as [|[i x] h IH]; intros Hh c Hc Hs; [reflexivity|]. destruct (Forall_inv Hh) as [Hi Hx]. cbn [fst snd] in Hi, Hx.
  pose proof (NN h (Forall_inv_tail Hh)). cbn [map zsum fst] in Hs.
  rewrite outs_cons, syncint_step by (try assumption; lia). cbn [fst snd]. rewrite IH by (try exact (Forall_inv_tail Hh); lia).
  cbn [length seq map nth firstn zsum fst snd]. cbv zeta. rewrite Z.add_0_r. f_equal. rewrite <- seq_shift, map_map. apply map_ext. intros t.
  cbn [nth firstn map zsum fst]. rewrite Z.add_assoc. reflexivity.
Qed.

(** ** BISQRT_S_IS with one register *)
Lemma nthZ_zero r : nthZ [0] r = 0.
Proof. unfold nthZ. destruct (Z.to_nat r) as [|[|n]]; reflexivity. Qed.
Lemma is_u_even o r x : bit o -> bit x -> bisqrt_is_u ((0, o), [0]) (r, x) = (((1, Z.lor o x), [o]), o).
Proof. intros [-> | ->] [-> | ->]; unfold bisqrt_is_u, cordiv_rtl; cbn [bnot Z.sub Z.land Z.lor Z.eqb Pos.eqb tl app]; rewrite ?nthZ_zero; reflexivity. Qed.
Lemma is_u_odd o r x s : bit o -> bisqrt_is_u ((1, o), [s]) (r, x) = (((0, x), [0]), o).
Proof. intros [-> | ->]; reflexivity. Qed.
Lemma bisqrt_is_u_pairs n : forall h o, length h = (2 * n)%nat -> Forall (fun p => bit (snd p)) h -> bit o ->
  let xs := map snd h in
  forall k, (k < n)%nat ->
  nth (2 * k) (outs bisqrt_is_u ((0, o), [0]) h) 0 = match k with O => o | S j => nth (2 * j + 1) xs 0 end /\
  nth (2 * k + 1) (outs bisqrt_is_u ((0, o), [0]) h) 0 = Z.lor (match k with O => o | S j => nth (2 * j + 1) xs 0 end) (nth (2 * k) xs 0).
Proof.
  induction n as [|n IH]; intros h o Hl Hh Ho xs k Hk; [lia|].
  destruct h as [|[r x] [|[r' y] h]]; cbn [length] in Hl; try lia.
  pose proof (Forall_inv Hh) as Hx. pose proof (Forall_inv (Forall_inv_tail Hh)) as Hy. cbn [snd] in Hx, Hy.
  assert (Hox : bit (Z.lor o x)) by (destruct Ho as [-> | ->], Hx as [-> | ->]; cbn; [left|right|right|right]; reflexivity).
  rewrite !outs_cons, is_u_even by assumption. cbn [fst snd]. rewrite is_u_odd by assumption. cbn [fst snd].
  unfold xs. cbn [map snd]. destruct k as [|k]; [split; reflexivity|].
  replace (2 * S k)%nat with (S (S (2 * k))) by lia. cbn [nth Nat.add].
  destruct (IH h y ltac:(lia) (Forall_inv_tail (Forall_inv_tail Hh)) Hy k ltac:(lia)) as [E1 E2]. rewrite E1, E2.
  destruct k as [|k]; [split; reflexivity|]. replace (2 * S k + 1)%nat with (S (S (2 * k + 1))) by lia. cbn [nth]. split; reflexivity.
Qed.
Lemma bisqrt_is_u_ramp n rs : length rs = (2 * n)%nat -> let h := map2 pair rs (concat (repeat [1; 0] n)) in
  ones (map snd h) = Z.of_nat n /\ ones (outs bisqrt_is_u (bisqrt_is_u_init 1) h) = Z.of_nat n.
Proof.
  unfold bisqrt_is_u_init. change (cordiv_rtl_init 1) with [0]. revert rs.
  induction n as [|n IH]; intros rs Hl; [destruct rs; [split; reflexivity|discriminate]|].
  destruct rs as [|r [|r' rs]]; cbn [length] in Hl; try lia. cbv zeta in *. cbn [repeat concat app map2 map snd].
  rewrite !outs_cons, is_u_even by (left + right; reflexivity). cbn [fst snd].
  rewrite is_u_odd by (right; reflexivity). cbn [fst snd]. destruct (IH rs ltac:(lia)) as [E1 E2].
  change (Z.lor 0 1) with 1. split; rewrite !ones_cons_bit by (left + right; reflexivity); lia.
Qed.

(** BISQRT_S_IS_B. *)
Lemma bi2uni_bit acc x : bit (snd (bi2uni_rtl 2 acc x)).
Proof.
  unfold bi2uni_rtl. cbn [snd]. apply land_bit; [|apply b2z_bit]. unfold bsel. pose proof (Z.mod_pos_bound (acc / p2 2) 2 ltac:(lia)).
  assert ((acc / p2 2) mod 2 = 0 \/ (acc / p2 2) mod 2 = 1) as [E|E] by lia; rewrite E; [left|right]; reflexivity.
Qed.
Lemma is_b_even acc r x : bit x ->
  bisqrt_is_b ((0, acc), [0]) (r, x) =
  (((1, fst (bi2uni_rtl 2 acc x)), [snd (bi2uni_rtl 2 acc x)]), Z.lor (snd (bi2uni_rtl 2 acc x)) x).
Proof.
  intros Hx. unfold bisqrt_is_b. pose proof (bi2uni_bit acc x) as Hb. destruct (bi2uni_rtl 2 acc x) as [acc' u]. cbn [fst snd] in *.
  destruct Hb as [-> | ->], Hx as [-> | ->]; unfold cordiv_rtl; cbn [bnot Z.sub Z.land Z.lor Z.eqb Pos.eqb tl app]; rewrite ?nthZ_zero; reflexivity.
Qed.
Lemma is_b_odd acc r x s : bisqrt_is_b ((1, acc), [s]) (r, x) = (((0, fst (bi2uni_rtl 2 acc x)), [0]), x).
Proof.
  unfold bisqrt_is_b. pose proof (bi2uni_bit acc x) as Hb. destruct (bi2uni_rtl 2 acc x) as [acc' u]. cbn [fst snd] in *.
  destruct Hb as [-> | ->]; reflexivity.
Qed.
Lemma bisqrt_is_b_pairs n : forall h acc, length h = (2 * n)%nat -> Forall (fun p => bit (snd p)) h ->
  let xs := map snd h in let us := outs (bi2uni_rtl 2) acc xs in let os := outs bisqrt_is_b ((0, acc), [0]) h in
  forall k, (k < n)%nat ->
  nth (2 * k) os 0 = Z.lor (nth (2 * k) us 0) (nth (2 * k) xs 0) /\ nth (2 * k + 1) os 0 = nth (2 * k + 1) xs 0.
Proof.
  induction n as [|n IH]; intros h acc Hl Hh xs us os k Hk; [lia|].
  destruct h as [|[r x] [|[r' y] h]]; cbn [length] in Hl; try lia.
  pose proof (Forall_inv Hh) as Hx. pose proof (Forall_inv (Forall_inv_tail Hh)) as Hy. cbn [snd] in Hx, Hy.
  unfold us, os, xs. cbn [map snd]. rewrite !outs_cons, is_b_even by assumption. cbn [fst snd]. rewrite is_b_odd. cbn [fst snd].
  destruct k as [|k]; [split; reflexivity|]. replace (2 * S k)%nat with (S (S (2 * k))) by lia. cbn [nth Nat.add].
  apply (IH h _ ltac:(lia) (Forall_inv_tail (Forall_inv_tail Hh)) k ltac:(lia)).
Qed.

(** ** ISCBDIV_B *)
Lemma iscbdiv_b_run d ds h : forall a1 a2 u1 u2 dv ub,
  let sa := outs (abs_rtl d) a1 (map in_dividend h) in let sb := outs (abs_rtl d) a2 (map in_divisor h) in
  let ua := outs (bi2uni_rtl 2) u1 (map snd sa) in let ub' := outs (bi2uni_rtl 2) u2 (map snd sb) in
  let qu := outs (iscbdiv_u ds) dv (map2 (fun r ab => (r, fst ab, snd ab)) (map (fun p => fst (fst p)) h) (combine ua ub')) in
  outs (iscbdiv_b d ds) ((a1, a2), (u1, u2), dv, ub) h =
  map2 Z.lxor (map2 Z.lxor (outs uni2bi_rtl ub qu) (map fst sa)) (map fst sb).
Proof.
  induction h as [|[[r a] b] h IH]; intros a1 a2 u1 u2 dv ub; [reflexivity|]. cbv zeta in *. cbn [map]. rewrite !outs_cons.
  set (st := iscbdiv_b d ds ((a1, a2), (u1, u2), dv, ub) (r, a, b)). assert (E : st = iscbdiv_b d ds ((a1, a2), (u1, u2), dv, ub) (r, a, b)) by reflexivity.
  clearbody st. cbn [iscbdiv_b] in E. change (in_dividend (r, a, b)) with a. change (in_divisor (r, a, b)) with b.
  destruct (abs_rtl d a1 a) as [a1' [s1 v1]], (abs_rtl d a2 b) as [a2' [s2 v2]]. cbn [fst snd map]. rewrite !outs_cons.
  destruct (bi2uni_rtl 2 u1 v1) as [u1' w1], (bi2uni_rtl 2 u2 v2) as [u2' w2]. cbn [fst snd combine map2]. rewrite !outs_cons.
  destruct (iscbdiv_u ds dv (r, w1, w2)) as [dv' q]. cbn [fst snd].
  destruct (uni2bi_rtl ub q) as [ub2 q2]. subst st. cbn [fst snd map2]. f_equal. apply IH.
Qed.

(** ** Consequences *)
Lemma relu_passes_run d xs : bits xs -> forall n, 0 <= n -> n + ones xs <= p2 d ->
  outs (relu_rtl d) (Z.min (p2 (S (S d)) - 1) (p2 d + n)) xs = xs.
Proof.
  induction xs as [|x xs IH]; intros Hb n Hn Hs; [reflexivity|]. pose proof (Forall_inv Hb) as Hx.
  rewrite ones_cons_bit in Hs by exact Hx. pose proof (ones_nonneg xs).
  rewrite outs_cons, relu_cnt, relu_out by assumption. rewrite IH; [|exact (Forall_inv_tail Hb)|destruct Hx; lia|lia]. f_equal.
  unfold relu_gap. destruct (Z.leb_spec (p2 d) n); [|reflexivity]. destruct (_ <? _); [|reflexivity]. cbn [andb]. destruct Hx; lia.
Qed.
Lemma relu_passes d xs : bits xs -> ones xs <= p2 d -> outs (relu_rtl d) (relu_rtl_init d) xs = xs.
Proof.
  intros Hb Hs. pose proof (p2_pos d). pose proof (p2_S d). pose proof (p2_S (S d)).
  pose proof (relu_passes_run d xs Hb 0 ltac:(lia) ltac:(lia)) as E. replace (Z.min (p2 (S (S d)) - 1) (p2 d + 0)) with (p2 d) in E by lia. exact E.
Qed.
Lemma syncint_again d n : forall c, 0 <= c < p2 (S d) -> outs (skewedsyncint_rtl d) c (repeat (0, 1) n) = repeat (c, 1) n.
Proof.
  induction n as [|n IH]; intros c Hc; [reflexivity|]. cbn [repeat]. rewrite outs_cons, syncint_step by (try (right; reflexivity); lia).
  cbn [fst snd Z.eqb Pos.eqb]. rewrite Z.add_0_r, IH by lia. reflexivity.
Qed.
Lemma syncint_wrong d n : let h := (1, 1) :: repeat (0, 1) n in
  zsum (map fst h) = 1 /\ zsum (map fst (outs (skewedsyncint_rtl d) skewedsyncint_rtl_init h)) = Z.of_nat (S n).
Proof.
  cbv zeta. pose proof (p2_pos d). pose proof (p2_S d). split.
  - cbn [map zsum fst]. rewrite map_repeat. cbn [fst]. assert (E : zsum (repeat 0 n) = 0) by (induction n; [reflexivity|cbn [repeat zsum]; lia]). lia.
  - rewrite outs_cons. unfold skewedsyncint_rtl_init. rewrite syncint_step by (try (right; reflexivity); lia). cbn [fst snd Z.eqb Pos.eqb Z.add].
    rewrite syncint_again by lia. cbn [map zsum fst]. rewrite map_repeat. cbn [fst].
    assert (E : zsum (repeat 1 n) = Z.of_nat n) by (clear; induction n; [reflexivity|cbn [repeat zsum]; lia]). lia.
Qed.

(** BISQRT_S_IS with any number of registers. *)
Lemma window_step (dep : nat) (sr : list Z) q qs t : (1 <= dep)%nat -> length sr = dep ->
  skipn (S t) (sr ++ q :: qs) = skipn t ((tl sr ++ [q]) ++ qs).
Proof. intros Hd L. destruct sr as [|a sr]; [cbn in L; lia|]. cbn [tl skipn app]. rewrite <- app_assoc. reflexivity. Qed.
Lemma cordiv_rtl_length sr i : (1 <= length sr)%nat -> length (fst (cordiv_rtl sr i)) = length sr.
Proof. intros L. destruct i as [[r a] b]. unfold cordiv_rtl. cbn [fst]. rewrite app_length. destruct sr; cbn [tl length] in *; lia. Qed.
Lemma is_quot_step (d : bool) u sr r : bit u ->
  let dv := Z.land (bnot (b2z d)) u in
  snd (cordiv_rtl sr (r, dv, Z.lor (b2z d) dv)) = if d then 0 else if u =? 1 then 1 else nth (Z.to_nat r) sr 0.
Proof. intros [-> | ->]; destruct d; reflexivity. Qed.
Definition is_law (dep : nat) (d : bool) (sr rs us qs : list Z) : Prop :=
  length qs = length rs /\ forall t, (t < length rs)%nat ->
  nth t qs 0 = if xorb d (Nat.odd t) then 0 else if nth t us 0 =? 1 then 1 else nth (Z.to_nat (nth t rs 0)) (firstn dep (skipn t (sr ++ qs))) 0.
Lemma is_law_cons dep (d : bool) sr r rs u us q qs : (1 <= dep)%nat -> length sr = dep ->
  q = (if d then 0 else if u =? 1 then 1 else nth (Z.to_nat r) sr 0) ->
  is_law dep (negb d) (tl sr ++ [q]) rs us qs -> is_law dep d sr (r :: rs) (u :: us) (q :: qs).
Proof.
  intros Hd L Eq [El Et]. split; [cbn [length]; lia|]. intros [|t] Ht.
  - cbn [nth skipn Nat.odd]. replace (xorb d (Nat.odd 0)) with d by (now destruct d). rewrite firstn_app, L, Nat.sub_diag, firstn_O, app_nil_r, firstn_all2 by lia. exact Eq.
  - cbn [nth length] in *. rewrite (Et t ltac:(lia)), Nat.odd_succ, (window_step dep) by assumption.
    replace (xorb d (Nat.even t)) with (xorb (negb d) (Nat.odd t)) by (unfold Nat.odd; destruct d, (Nat.even t); reflexivity). reflexivity.
Qed.
Lemma bisqrt_is_b_law dep h : (1 <= dep)%nat -> Forall (fun p => bit (snd p)) h -> forall d acc sr, length sr = dep ->
  exists qs, is_law dep d sr (map fst h) (outs (bi2uni_rtl 2) acc (map snd h)) qs /\
  outs bisqrt_is_b ((b2z d, acc), sr) h = map2 (fun q x => if q =? 1 then 1 else x) qs (map snd h).
Proof.
  intros Hd. induction h as [|[r x] h IH]; intros Hh d acc sr L.
  - exists []. split; [split; [reflexivity|intros t Ht; cbn in Ht; lia]|reflexivity].
  - cbn [map fst snd]. rewrite !outs_cons. pose proof (bi2uni_bit acc x) as Hu.
    assert (Step : bisqrt_is_b (b2z d, acc, sr) (r, x) =
      let '(acc', u) := bi2uni_rtl 2 acc x in
      let p := cordiv_rtl sr (r, Z.land (bnot (b2z d)) u, Z.lor (b2z d) (Z.land (bnot (b2z d)) u)) in
      (((bnot (b2z d), acc'), fst p), if snd p =? 1 then 1 else x))
      by (unfold bisqrt_is_b; destruct (bi2uni_rtl 2 acc x) as [acc' u]; destruct (cordiv_rtl sr _); reflexivity).
    rewrite Step. clear Step. destruct (bi2uni_rtl 2 acc x) as [acc' u]. cbv zeta.
    cbn [fst snd] in Hu |- *. pose proof (is_quot_step d u sr r Hu) as Eq. cbv zeta in Eq.
    pose proof (cordiv_rtl_length sr (r, Z.land (bnot (b2z d)) u, Z.lor (b2z d) (Z.land (bnot (b2z d)) u)) ltac:(lia)) as El.
    assert (Es : fst (cordiv_rtl sr (r, Z.land (bnot (b2z d)) u, Z.lor (b2z d) (Z.land (bnot (b2z d)) u))) =
      tl sr ++ [snd (cordiv_rtl sr (r, Z.land (bnot (b2z d)) u, Z.lor (b2z d) (Z.land (bnot (b2z d)) u)))]) by reflexivity.
    destruct (cordiv_rtl sr _) as [sr' q]. cbn [fst snd] in *.
    replace (bnot (b2z d)) with (b2z (negb d)) by (now destruct d).
    destruct (IH (Forall_inv_tail Hh) (negb d) acc' sr' ltac:(lia)) as [qs [Q1 Q2]]. exists (q :: qs). split.
    + apply is_law_cons; [assumption|assumption|exact Eq|]. rewrite <- Es. exact Q1.
    + cbn [map2]. rewrite Q2. reflexivity.
Qed.
Lemma bisqrt_is_u_law dep h : (1 <= dep)%nat -> Forall (fun p => bit (snd p)) h -> forall d o sr, length sr = dep -> bit o ->
  let os := outs bisqrt_is_u ((b2z d, o), sr) h in
  exists qs, is_law dep d sr (map fst h) os qs /\
  (h <> [] -> os = o :: removelast (map2 (fun q x => if q =? 1 then 1 else x) qs (map snd h))).
Proof.
  intros Hd. induction h as [|[r x] h IH]; intros Hh d o sr L Ho.
  - exists []. split; [split; [reflexivity|intros t Ht; cbn in Ht; lia]|congruence].
  - cbv zeta. rewrite !outs_cons. pose proof (Forall_inv Hh) as Hx. cbn [snd] in Hx.
    assert (Step : bisqrt_is_u (b2z d, o, sr) (r, x) =
      let p := cordiv_rtl sr (r, Z.land (bnot (b2z d)) o, Z.lor (b2z d) (Z.land (bnot (b2z d)) o)) in
      (((bnot (b2z d), if snd p =? 1 then 1 else x), fst p), o)) by (unfold bisqrt_is_u; destruct (cordiv_rtl sr _); reflexivity).
    rewrite Step. cbv zeta. cbn [fst snd map]. clear Step.
    pose proof (is_quot_step d o sr r Ho) as Eq. cbv zeta in Eq.
    pose proof (cordiv_rtl_length sr (r, Z.land (bnot (b2z d)) o, Z.lor (b2z d) (Z.land (bnot (b2z d)) o)) ltac:(lia)) as El.
    assert (Es : fst (cordiv_rtl sr (r, Z.land (bnot (b2z d)) o, Z.lor (b2z d) (Z.land (bnot (b2z d)) o))) =
      tl sr ++ [snd (cordiv_rtl sr (r, Z.land (bnot (b2z d)) o, Z.lor (b2z d) (Z.land (bnot (b2z d)) o)))]) by reflexivity.
    destruct (cordiv_rtl sr _) as [sr' q]. cbn [fst snd] in *.
    replace (bnot (b2z d)) with (b2z (negb d)) by (now destruct d).
    assert (Ho' : bit (if q =? 1 then 1 else x)) by (destruct (q =? 1); [right; reflexivity|exact Hx]).
    destruct (IH (Forall_inv_tail Hh) (negb d) _ sr' ltac:(lia) Ho') as [qs [Q1 Q2]]. exists (q :: qs). split.
    + apply is_law_cons; [assumption|assumption|exact Eq|]. rewrite <- Es. exact Q1.
    + intros _. f_equal. cbn [map2]. destruct h as [|p h]; [destruct qs; reflexivity|]. specialize (Q2 ltac:(discriminate)). rewrite Q2.
      destruct qs as [|q' qs]; [destruct Q1 as [Q1 _]; cbn in Q1; lia|]. reflexivity.
Qed.
Lemma cordiv_init_length dep : length (cordiv_rtl_init dep) = dep.
Proof. unfold cordiv_rtl_init. now rewrite map_length, seq_length. Qed.
Lemma is_law_quot dep rs us qs : is_law dep false (cordiv_rtl_init dep) rs us qs -> is_quotients dep rs us qs.
Proof. intros [E Et]. split; [exact E|]. intros t Ht. rewrite (Et t Ht). replace (xorb false (Nat.odd t)) with (Nat.odd t) by (now destruct (Nat.odd t)). reflexivity. Qed.
Lemma bisqrt_is_b_any dep h : (1 <= dep)%nat -> Forall (fun p => bit (snd p)) h ->
  exists qs, is_quotients dep (map fst h) (outs (bi2uni_rtl 2) (bi2uni_rtl_init 2) (map snd h)) qs /\
  outs bisqrt_is_b (bisqrt_is_b_init dep) h = map2 (fun q x => if q =? 1 then 1 else x) qs (map snd h).
Proof.
  intros Hd Hh. destruct (bisqrt_is_b_law dep h Hd Hh false (bi2uni_rtl_init 2) (cordiv_rtl_init dep) (cordiv_init_length dep)) as [qs [Q1 Q2]].
  exists qs. split; [exact (is_law_quot _ _ _ _ Q1)|exact Q2].
Qed.
Lemma bisqrt_is_u_any dep h : (1 <= dep)%nat -> Forall (fun p => bit (snd p)) h -> h <> [] ->
  let os := outs bisqrt_is_u (bisqrt_is_u_init dep) h in
  exists qs, is_quotients dep (map fst h) os qs /\ os = 0 :: removelast (map2 (fun q x => if q =? 1 then 1 else x) qs (map snd h)).
Proof.
  intros Hd Hh Hn. destruct (bisqrt_is_u_law dep h Hd Hh false 0 (cordiv_rtl_init dep) (cordiv_init_length dep) (or_introl eq_refl)) as [qs [Q1 Q2]].
  exists qs. split; [exact (is_law_quot _ _ _ _ Q1)|exact (Q2 Hn)].
Qed.
