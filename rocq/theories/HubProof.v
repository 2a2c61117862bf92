(** Proofs about the binary-interfaced layers (HubModel.v). *)
From Coq Require Import String Lqa Permutation.
Require Import Verif.BaseLemmas Verif.GenModel Verif.GenProof Verif.KernelModel Verif.KernelProof
  Verif.UtilsModel Verif.UtilsProof Verif.LinearModel Verif.LinearProof Verif.HubModel.
Open Scope Z_scope.

(** ** HUB multiplication table *)

Lemma zsum_b2z {A} (f : A -> bool) l : zsum (map (fun x => b2z (f x)) l) = countb f l.
Proof. induction l as [|x l IH]; [reflexivity|]. cbn [map zsum countb]. rewrite IH. unfold b2z. destruct (f x); lia. Qed.

Lemma below_firstn l v : forall n, (n <= length l)%nat -> countb (fun r => r <? v) (firstn n l) = below l v n.
Proof.
  induction n as [|n IH]; intros Hn; [reflexivity|].
  rewrite (firstn_S_nth l n 0) by lia. rewrite countb_app, IH by lia. rewrite below_S. f_equal.
  cbn [countb]. unfold cyc, b2z. rewrite Nat.mod_small by lia. destruct (nth n l 0 <? v); reflexivity.
Qed.

Lemma ctler_perm w l v : perm_seq w l -> 0 <= v <= p2 w -> zsum (map (fun r => b2z (v >? r)) l) = v.
Proof.
  intros HP Hv. rewrite zsum_b2z. rewrite (countb_ext _ (fun r => r <? v)) by (intros; rewrite Z.gtb_ltb; reflexivity).
  rewrite (countb_perm _ _ _ HP), countb_lt_zrange, p2_nat. unfold zclamp. lia.
Qed.

Lemma hub_table_entry w l1 l2 c v : perm_seq w l1 -> perm_seq w l2 -> 0 <= c < p2 w -> 0 <= v < p2 w ->
  nthZ (nth (Z.to_nat c) (hub_table (2 ^ w) l1 l2) []) v = below l2 v (Z.to_nat c).
Proof.
  intros H1 H2 Hc Hv. pose proof (p2_nat w) as PN.
  assert (Lc : (Z.to_nat c < 2 ^ w)%nat) by lia. assert (Lv : (Z.to_nat v < 2 ^ w)%nat) by lia.
  assert (LZ : length (zrange (2 ^ w)) = (2 ^ w)%nat) by (unfold zrange; rewrite map_length, seq_length; reflexivity).
  unfold hub_table, hub_ctler. rewrite map_map.
  rewrite (nth_indep _ [] ((fun x => map (fun v0 => zsum (firstn (Z.to_nat (zsum (map (fun r => b2z (x >? r)) l1))) (map (fun r => b2z (v0 >? r)) l2))) (zrange (2 ^ w))) 0))
    by (rewrite map_length; lia).
  rewrite (map_nth (fun x => map (fun v0 => zsum (firstn (Z.to_nat (zsum (map (fun r => b2z (x >? r)) l1))) (map (fun r => b2z (v0 >? r)) l2))) (zrange (2 ^ w)))).
  rewrite nth_zrange by exact Lc. rewrite Z2Nat.id by lia. rewrite (ctler_perm w) by (assumption || lia).
  unfold nthZ.
  rewrite (nth_indep _ 0 ((fun v0 => zsum (firstn (Z.to_nat c) (map (fun r => b2z (v0 >? r)) l2))) 0)) by (rewrite map_length; lia).
  rewrite (map_nth (fun v0 => zsum (firstn (Z.to_nat c) (map (fun r => b2z (v0 >? r)) l2)))).
  rewrite nth_zrange by exact Lv. rewrite Z2Nat.id by lia. rewrite firstn_map, zsum_b2z.
  rewrite <- below_firstn.
  - apply countb_ext. intros r _. apply Z.gtb_ltb.
  - rewrite (perm_seq_len w l2 H2). lia.
Qed.

Lemma below_mono_n l B a b : (a <= b)%nat -> below l B a <= below l B b.
Proof. induction 1 as [|b H IH]; [lia|]. rewrite below_S. unfold b2z. destruct (cyc l b <? B); lia. Qed.
Lemma below_mono_B l B B' n : B <= B' -> below l B n <= below l B' n.
Proof.
  intros H. unfold below. apply countb_mono. intros k _ E. apply Z.ltb_lt in E. apply Z.ltb_lt. lia.
Qed.
Lemma below_steps l B n k : below l B (n + k) <= below l B n + Z.of_nat k.
Proof. induction k as [|k IH]; [rewrite Nat.add_0_r; lia|]. rewrite Nat.add_succ_r, below_S. unfold b2z. destruct (cyc l (n + k) <? B); lia. Qed.
Lemma below_total w l B : perm_seq w l -> 0 <= B <= p2 w -> below l B (2 ^ w) = B.
Proof. intros HP HB. replace (2 ^ w)%nat with (1 * 2 ^ w)%nat by lia. rewrite (below_periods w) by exact HP. unfold zclamp. lia. Qed.

Theorem below_laws : forall w l c v, perm_seq w l -> 0 <= c <= p2 w -> 0 <= v <= p2 w ->
  let e := below l v (Z.to_nat c) in
  Z.max 0 (c + v - p2 w) <= e <= Z.min c v /\ (c = 0 \/ v = 0 -> e = 0) /\
  (forall c' v', 0 <= c' <= c -> 0 <= v' <= v -> below l v' (Z.to_nat c') <= e).
Proof.
  intros w l c v HP Hc Hv e. pose proof (below_bounds l v (Z.to_nat c)) as B1. fold e in B1.
  pose proof (below_total w l v HP Hv) as T. pose proof (p2_nat w) as PN.
  pose proof (below_mono_n l v (Z.to_nat c) (2 ^ w) ltac:(lia)) as M1. fold e in M1. rewrite T in M1.
  pose proof (below_steps l v (Z.to_nat c) (2 ^ w - Z.to_nat c)) as S1. fold e in S1.
  replace (Z.to_nat c + (2 ^ w - Z.to_nat c))%nat with (2 ^ w)%nat in S1 by lia. rewrite T in S1.
  assert (M : Z.max 0 (c + v - p2 w) <= e <= Z.min c v) by lia.
  split; [exact M|]. split; [intros [->| ->]; lia|].
  intros c' v' Hc' Hv'. unfold e. etransitivity; [apply (below_mono_n l v' (Z.to_nat c') (Z.to_nat c)); lia|].
  apply below_mono_B. lia.
Qed.

(** What the two RNG objects take from outside is admissible (Sobol tables, random permutations). *)
Definition ext_ok (ext : rng_ext) (w : nat) : Prop :=
  dirvec_ok 30 (ext_dirvec ext 1) /\ perm_seq w (ext_randperm ext).

Lemma rng_ok_perm ext name k w : (w <= sobol_maxbit)%nat -> ext_ok ext w -> rng_parse name = Ok k -> k <> KLfsr ->
  rng_new ext name w 1 = Ok (rng_seq ext k w 1) /\ perm_seq w (rng_seq ext k w 1).
Proof.
  intros Hw [H1 H2] Hk Hl. destruct (rng_permutation ext name k w 1 Hw H1 H2 Hk Hl) as (l & E & P & _).
  unfold rng_new in *. rewrite Hk in *. cbn [bind] in *. split; [reflexivity|]. congruence.
Qed.

Definition hub_entry (c : hub_cfg) (i j : Z) : Z := nthZ (nth (Z.to_nat i) (hub_map c) []) j.

(** The sequence of the controlled operand. *)
Definition hub_ctlee (exti extw : rng_ext) (ki kw : rng_kind) (w : nat) : list Z :=
  if is_tc kw then rng_seq exti ki w 1 else rng_seq extw kw w 1.

Theorem hub_new_ok : forall exti extw w ri rw ki kw cyc, (1 <= w <= sobol_maxbit)%nat -> ext_ok exti w -> ext_ok extw w ->
  rng_parse ri = Ok ki -> rng_parse rw = Ok kw -> ki <> KLfsr -> kw <> KLfsr -> is_tc ki && is_tc kw = false ->
  exists c, hub_new exti extw (S w) (S w) ri rw (Some cyc) = Ok c /\ hub_cycle c = Z.min cyc (p2 w) /\
    perm_seq w (hub_ctlee exti extw ki kw w) /\
    forall i j, 0 <= i < p2 w -> 0 <= j < p2 w ->
      hub_entry c i j = below (hub_ctlee exti extw ki kw w) j (Z.to_nat i).
Proof.
  intros exti extw w ri rw ki kw cyc Hw Xi Xw Ki Kw Li Lw Ht.
  destruct (rng_ok_perm exti ri ki w ltac:(lia) Xi Ki Li) as [Ei Pi].
  destruct (rng_ok_perm extw rw kw w ltac:(lia) Xw Kw Lw) as [Ew Pw].
  unfold hub_new. rewrite Ki, Kw, Ht. cbn [orb]. rewrite Nat.max_id. replace (S w - 1)%nat with w by lia.
  rewrite Ei, Ew. cbn [bind].
  assert (N1 : (2 ^ w =? 1)%nat = false).
  { apply Nat.eqb_neq. pose proof (p2_nat w). pose proof (p2_le 1 w ltac:(lia)). change (p2 1) with 2 in *. lia. }
  unfold hub_ctlee. assert (Cs : is_tc kw = true -> is_tc ki = false) by (intros E; rewrite E, andb_true_r in Ht; exact Ht).
  destruct (is_tc kw) eqn:Tk.
  - rewrite (Cs eq_refl). cbn [negb andb].
    rewrite (perm_seq_len w _ Pi), (perm_seq_len w _ Pw), !Nat.eqb_refl, N1. cbn [orb andb negb].
    eexists. split; [reflexivity|]. cbn [hub_cycle hub_map]. split; [rewrite p2_nat; reflexivity|]. split; [exact Pi|].
    intros i j Hi Hj. unfold hub_entry. cbn [hub_map]. apply hub_table_entry; assumption.
  - rewrite andb_false_r.
    rewrite (perm_seq_len w _ Pi), (perm_seq_len w _ Pw), !Nat.eqb_refl, N1. cbn [orb andb negb].
    eexists. split; [reflexivity|]. cbn [hub_cycle hub_map]. split; [rewrite p2_nat; reflexivity|]. split; [exact Pw|].
    intros i j Hi Hj. unfold hub_entry. cbn [hub_map]. apply hub_table_entry; assumption.
Qed.

Theorem hub_new_errors : forall exti extw ri rw ki kw, rng_parse ri = Ok ki -> rng_parse rw = Ok kw ->
  (forall wi ww, hub_new exti extw wi ww ri rw None = Err TypeError) /\
  (forall wi ww cyc, is_tc ki = true -> is_tc kw = true -> hub_new exti extw wi ww ri rw (Some cyc) = Err AssertionError) /\
  (forall wi ww cyc, (wi <> ww)%nat -> (1 <= wi <= sobol_maxbit)%nat -> (1 <= ww <= sobol_maxbit)%nat -> is_tc ki && is_tc kw = false ->
     ext_ok exti (S wi - 1) -> ext_ok extw (S ww - 1) -> ki <> KLfsr -> kw <> KLfsr ->
     hub_new exti extw (S wi) (S ww) ri rw (Some cyc) = Err RuntimeError).
Proof.
  intros exti extw ri rw ki kw Ki Kw. split; [reflexivity|]. split.
  - intros wi ww cyc T1 T2. unfold hub_new. rewrite Ki, Kw, T1, T2. reflexivity.
  - intros wi ww cyc Hne Hwi Hww Ht Xi Xw Li Lw. replace (S wi - 1)%nat with wi in Xi by lia. replace (S ww - 1)%nat with ww in Xw by lia.
    destruct (rng_ok_perm exti ri ki wi ltac:(lia) Xi Ki Li) as [Ei Pi].
    destruct (rng_ok_perm extw rw kw ww ltac:(lia) Xw Kw Lw) as [Ew Pw].
    unfold hub_new. rewrite Ki, Kw, Ht.
    replace (S wi - 1)%nat with wi by lia. replace (S ww - 1)%nat with ww by lia.
    rewrite Ei, Ew. cbn [bind].
    assert (P1 : forall a, (1 <= a)%nat -> (2 ^ a =? 1)%nat = false).
    { intros a Ha. apply Nat.eqb_neq. pose proof (p2_nat a). pose proof (p2_le 1 a Ha). change (p2 1) with 2 in *. lia. }
    assert (Inj : forall a b, (2 ^ a =? 2 ^ b)%nat = (a =? b)%nat).
    { intros a b. destruct (Nat.eqb_spec a b) as [->|N]; [apply Nat.eqb_refl|]. apply Nat.eqb_neq. intros E.
      apply N. apply (Nat.pow_inj_r 2); [lia|exact E]. }
    replace (Nat.max (S wi) (S ww) - 1)%nat with (Nat.max wi ww) by lia.
    set (M := Nat.max wi ww).
    assert (F : ((((wi =? M) || false) && ((ww =? M) || false)) = false)%nat).
    { rewrite !orb_false_r. destruct (Nat.eqb_spec wi M), (Nat.eqb_spec ww M); try reflexivity. exfalso. unfold M in *. lia. }
    destruct (negb (is_tc ki) && is_tc kw); rewrite (perm_seq_len wi _ Pi), (perm_seq_len ww _ Pw), !Inj, !P1 by lia.
    + rewrite andb_comm in F. rewrite F. reflexivity.
    + rewrite F. reflexivity.
Qed.

(** ** Matrices *)

Lemma map_nth_lt {A B} (f : A -> B) l i d d' : (i < length l)%nat -> nth i (map f l) d = f (nth i l d').
Proof. intros H. rewrite (nth_indep _ d (f d')) by (rewrite map_length; exact H). apply map_nth. Qed.

Lemma map2_nth_lt {A B C} (f : A -> B -> C) : forall l1 l2 i d d1 d2, (i < length l1)%nat -> (i < length l2)%nat ->
  nth i (map2 f l1 l2) d = f (nth i l1 d1) (nth i l2 d2).
Proof.
  induction l1 as [|x l1 IH]; intros [|y l2] i d d1 d2 H1 H2; cbn [length] in *; try lia.
  destruct i as [|i]; [reflexivity|]. cbn [map2 nth]. apply IH; lia.
Qed.

Lemma map2_seq {A B C} (f : A -> B -> C) n l1 l2 d1 d2 : length l1 = n -> length l2 = n ->
  map2 f l1 l2 = tab n (fun i => f (nth i l1 d1) (nth i l2 d2)).
Proof.
  intros H1 H2. rewrite (tab_of l1 d1), (tab_of l2 d2), H1, H2 at 1. rewrite map2_tab. reflexivity.
Qed.

Definition bias_ok (no : nat) (bias : option (list Q)) : Prop := match bias with None => True | Some l => length l = no end.

Lemma qshape_row r c m i : qshape r c m -> (i < r)%nat -> length (nth i m []) = c.
Proof. intros [H1 H2] Hi. apply (Forall_nth_lt _ m i [] H2). lia. Qed.

Lemma layer_shape (F : list Q -> list Q -> Q) B n no input weight bias : qshape B n input -> qshape no n weight -> bias_ok no bias ->
  qshape B no (add_bias bias (map (fun x => map (F x) weight) input)).
Proof.
  intros [I1 I2] [W1 W2] Hb. unfold add_bias, qshape. destruct bias as [bl|]; [cbn in Hb|]; rewrite !map_length; (split; [exact I1|]).
  - rewrite Forall_map, Forall_map. apply Forall_forall. intros x _. rewrite map2_length; rewrite map_length; lia.
  - rewrite Forall_map. apply Forall_forall. intros x _. rewrite map_length. exact W1.
Qed.

Lemma layer_entry (F : list Q -> list Q -> Q) B n no input weight bias b o : qshape B n input -> qshape no n weight -> bias_ok no bias ->
  (b < B)%nat -> (o < no)%nat ->
  (qentry (add_bias bias (map (fun x => map (F x) weight) input)) b o == F (nth b input []) (nth o weight []) + bias_entry bias o)%Q.
Proof.
  intros [I1 I2] [W1 W2] Hb Lb Lo. unfold add_bias, qentry, bias_entry. destruct bias as [bl|].
  - cbn in Hb. rewrite (map_nth_lt _ _ _ _ []) by (rewrite map_length; lia).
    rewrite (map_nth_lt (fun x => map (F x) weight) _ _ _ []) by lia.
    rewrite (map2_nth_lt _ _ _ _ _ 0%Q 0%Q) by (rewrite ?map_length; lia).
    rewrite (map_nth_lt _ _ _ _ []) by lia. reflexivity.
  - rewrite (map_nth_lt (fun x => map (F x) weight) _ _ _ []) by lia. rewrite (map_nth_lt _ _ _ _ []) by lia. ring.
Qed.

Lemma zsum_tab_mul_r n f k : zsum (tab n (fun i => f i * k)) = zsum (tab n f) * k.
Proof. induction n as [|n IH]; [reflexivity|]. rewrite !tab_S, !zsum_app, IH. cbn [zsum]. lia. Qed.
Lemma zsum_tab_sub n f g : zsum (tab n (fun i => f i - g i)) = zsum (tab n f) - zsum (tab n g).
Proof. induction n as [|n IH]; [reflexivity|]. rewrite !tab_S, !zsum_app, IH. cbn [zsum]. lia. Qed.
Lemma zsum_tab_abs n f K : (forall i, (i < n)%nat -> Z.abs (f i) <= K) -> Z.abs (zsum (tab n f)) <= Z.of_nat n * K.
Proof.
  induction n as [|n IH]; intros H; [cbn; lia|]. rewrite tab_S, zsum_app. cbn [zsum].
  pose proof (H n ltac:(lia)). assert (Z.abs (zsum (tab n f)) <= Z.of_nat n * K) by (apply IH; intros; apply H; lia). lia.
Qed.
Lemma qsum_tab_scaled n f d : (qsum (tab n (fun i => inject_Z (f i) * d)) == inject_Z (zsum (tab n f)) * d)%Q.
Proof.
  induction n as [|n IH]; [cbn; ring|]. rewrite !tab_S, qsum_app, IH, zsum_app. cbn [qsum zsum]. rewrite !inject_Z_plus. ring.
Qed.

(** ** HUB layer *)

Lemma qshr_step_round r x : qround (qshr x r) = step_round r x. Proof. reflexivity. Qed.

Lemma hub_mag_eq cycle r x : 1 <= cycle -> hub_mag cycle r x = Z.min (cycle - 1) (Z.abs (step_round r x)) /\ 0 <= hub_mag cycle r x < cycle.
Proof. intros H. unfold hub_mag. rewrite qshr_step_round. unfold zclamp. lia. Qed.

Lemma qsign_abs x : Z.abs (qsign x) <= 1.
Proof. unfold qsign. destruct (Qcompare x 0); lia. Qed.

Definition table_of (c : hub_cfg) (w : nat) (l : list Z) : Prop :=
  forall i j, 0 <= i < p2 w -> 0 <= j < p2 w -> hub_entry c i j = below l j (Z.to_nat i).
Definition low_discrepancy (w : nat) (l : list Z) : Prop :=
  forall B n, 0 <= B <= p2 w -> Z.abs (below l B n * p2 w - Z.of_nat n * B) <= Z.of_nat w * p2 w.

Lemma hub_mul_eq c ri rw x y : hub_mul c ri rw x y =
  qsign x * qsign y * hub_entry c (hub_mag (hub_cycle c) ri x) (hub_mag (hub_cycle c) rw y).
Proof. unfold hub_mul, hub_entry. lia. Qed.

Lemma hub_mul_error c w l ri rw x y : table_of c w l -> low_discrepancy w l -> 1 <= hub_cycle c <= p2 w ->
  Z.abs (hub_mul c ri rw x y * p2 w -
    (qsign x * Z.min (hub_cycle c - 1) (Z.abs (step_round ri x))) * (qsign y * Z.min (hub_cycle c - 1) (Z.abs (step_round rw y))))
  <= Z.of_nat w * p2 w.
Proof.
  intros HT HD Hc. rewrite hub_mul_eq.
  destruct (hub_mag_eq (hub_cycle c) ri x ltac:(lia)) as [<- Rx]. destruct (hub_mag_eq (hub_cycle c) rw y ltac:(lia)) as [<- Ry].
  set (i := hub_mag _ ri x) in *. set (j := hub_mag _ rw y) in *.
  rewrite (HT i j) by lia. pose proof (HD j (Z.to_nat i) ltac:(lia)) as D. rewrite Z2Nat.id in D by lia.
  set (e := below l j (Z.to_nat i)) in *.
  replace (qsign x * qsign y * e * p2 w - qsign x * i * (qsign y * j)) with ((qsign x * qsign y) * (e * p2 w - i * j)) by ring.
  rewrite Z.abs_mul, Z.abs_mul. pose proof (qsign_abs x). pose proof (qsign_abs y). set (D' := Z.abs (e * p2 w - i * j)) in *.
  assert (0 <= D') by (unfold D'; lia). assert (Z.abs (qsign x) * Z.abs (qsign y) <= 1) by nia. nia.
Qed.

Theorem hub_forward_bound : forall c w l ri rw ro B n no input weight bias,
  table_of c w l -> low_discrepancy w l -> 1 <= hub_cycle c <= p2 w -> ro = - (ri + rw) - Z.of_nat w ->
  qshape B n input -> qshape no n weight -> bias_ok no bias ->
  qshape B no (hub_forward c ri rw ro input weight bias) /\
  forall b o, (b < B)%nat -> (o < no)%nat ->
  (Qabs (qentry (hub_forward c ri rw ro input weight bias) b o -
     (dotq n (fun i => sm_quant (hub_cycle c) ri (qentry input b i)) (fun i => sm_quant (hub_cycle c) rw (qentry weight o i))
      + bias_entry bias o)) <= inject_Z (Z.of_nat n * Z.of_nat w) * Qpower 2 (Z.of_nat w + ri + rw))%Q.
Proof.
  intros c w l ri rw ro B n no input weight bias HT HD Hc Hro Hi Hw Hb.
  unfold hub_forward. set (F := fun x y => qshr (inject_Z (zsum (map2 (hub_mul c ri rw) x y))) ro).
  split; [apply (layer_shape F B n no); assumption|].
  intros b o Lb Lo. change (fun x => map (fun w0 => qshr (inject_Z (zsum (map2 (hub_mul c ri rw) x w0))) ro) weight) with (fun x => map (F x) weight).
  rewrite (layer_entry F B n no input weight bias b o Hi Hw Hb Lb Lo). unfold F. clear F.
  rewrite (map2_seq (hub_mul c ri rw) n _ _ 0%Q 0%Q) by (eapply qshape_row; eassumption).
  set (f := fun i => hub_mul c ri rw (nth i (nth b input []) 0%Q) (nth i (nth o weight []) 0%Q)).
  set (g := fun i => (qsign (qentry input b i) * Z.min (hub_cycle c - 1) (Z.abs (step_round ri (qentry input b i)))) *
                     (qsign (qentry weight o i) * Z.min (hub_cycle c - 1) (Z.abs (step_round rw (qentry weight o i))))).
  assert (Z1 : Z.abs (zsum (tab n f) * p2 w - zsum (tab n g)) <= Z.of_nat n * (Z.of_nat w * p2 w)).
  { rewrite <- zsum_tab_mul_r, <- zsum_tab_sub. apply zsum_tab_abs. intros i Hi'. unfold f, g.
    apply (hub_mul_error c w l); assumption. }
  assert (E1 : (dotq n (fun i => sm_quant (hub_cycle c) ri (qentry input b i)) (fun i => sm_quant (hub_cycle c) rw (qentry weight o i))
                == inject_Z (zsum (tab n g)) * qpow2 (ri + rw))%Q).
  { rewrite <- qsum_tab_scaled. unfold dotq. apply (qsum_tab_ext n). intros i _. unfold sm_quant, g.
    change (Qpower 2) with qpow2. rewrite qpow2_add, !inject_Z_mult. ring. }
  rewrite E1. unfold qshr. rewrite Hro.
  assert (P : (qpow2 (- (ri + rw) - Z.of_nat w) * (qpow2 (ri + rw) * inject_Z (p2 w)) == 1)%Q).
  { rewrite <- (qpow2_Z (Z.of_nat w)) by lia. rewrite <- !qpow2_add. replace (_ + _) with 0 by lia. reflexivity. }
  assert (E2 : (inject_Z (zsum (tab n f)) / qpow2 (- (ri + rw) - Z.of_nat w) == inject_Z (zsum (tab n f) * p2 w) * qpow2 (ri + rw))%Q).
  { pose proof (qpow2_pos (- (ri + rw) - Z.of_nat w)) as Pp. rewrite inject_Z_mult.
    set (q := qpow2 (- (ri + rw) - Z.of_nat w)) in *. apply (Qmult_inj_r _ _ q); [lra|].
    transitivity (inject_Z (zsum (tab n f)) * 1)%Q; [field; lra|]. rewrite <- P. ring. }
  rewrite E2.
  set (S1 := zsum (tab n f) * p2 w) in *. set (S2 := zsum (tab n g)) in *.
  assert (E3 : (inject_Z S1 * qpow2 (ri + rw) + bias_entry bias o - (inject_Z S2 * qpow2 (ri + rw) + bias_entry bias o)
                == inject_Z (S1 - S2) * qpow2 (ri + rw))%Q).
  { unfold Z.sub. rewrite inject_Z_plus, inject_Z_opp. ring. }
  rewrite E3. rewrite Qabs_Qmult. pose proof (qpow2_pos (ri + rw)) as Pp.
  rewrite (Qabs_pos (qpow2 (ri + rw))) by lra.
  change (Qpower 2 (Z.of_nat w + ri + rw)) with (qpow2 (Z.of_nat w + ri + rw)).
  replace (Z.of_nat w + ri + rw) with (Z.of_nat w + (ri + rw)) by lia. rewrite (qpow2_add (Z.of_nat w) (ri + rw)), (qpow2_Z (Z.of_nat w)) by lia.
  rewrite Qmult_assoc. apply Qmult_le_compat_r; [|lra].
  change (2 ^ Z.of_nat w) with (p2 w). rewrite <- inject_Z_mult.
  assert (QA : (Qabs (inject_Z (S1 - S2)) == inject_Z (Z.abs (S1 - S2)))%Q) by reflexivity.
  rewrite QA. rewrite <- Zle_Qle. lia.
Qed.

Lemma hub_offsets input weight w r qi qw ri rw ro :
  rshift_offset input weight w w r qi qw = Ok (Some (ri, rw, ro)) -> ro = - (ri + rw) - w.
Proof.
  unfold rshift_offset. destruct input as [|x0 input]; [discriminate|]. destruct weight as [|y0 weight]; [discriminate|].
  destruct (Qle_bool _ 0 || Qle_bool _ 0); [discriminate|]. intros E. apply (f_equal (fun a => match a with Ok (Some p) => Some p | _ => None end)) in E.
  cbv beta iota in E. pose proof (f_equal (fun a => match a with Some (p, _, _) => p | None => 0 end) E) as E1.
  pose proof (f_equal (fun a => match a with Some (_, p, _) => p | None => 0 end) E) as E2.
  pose proof (f_equal (fun a => match a with Some (_, _, p) => p | None => 0 end) E) as E3. cbv beta iota in E1, E2, E3. lia.
Qed.

Lemma sobol_low_discrepancy ext w : (w <= sobol_maxbit)%nat -> ext_ok ext w -> low_discrepancy w (rng_seq ext KSobol w 1).
Proof. intros Hw [H1 _] B n HB. apply below_sobol; assumption. Qed.

Theorem hub_linear_bound : forall exti extw w rngi rngw ki kw cyc B n no r qi qw input weight bias,
  (1 <= w <= sobol_maxbit)%nat -> ext_ok exti w -> ext_ok extw w ->
  rng_parse rngi = Ok ki -> rng_parse rngw = Ok kw -> ki <> KLfsr -> kw <> KLfsr -> is_tc ki && is_tc kw = false ->
  (if is_tc kw then ki else kw) = KSobol -> 1 <= cyc ->
  qshape B n input -> qshape no n weight -> bias_ok no bias ->
  exists c, hub_new exti extw (S w) (S w) rngi rngw (Some cyc) = Ok c /\
  forall out, hub_linear c (S w) (S w) r qi qw input weight bias = Ok (Some out) ->
  exists ri rw ro, rshift_offset (concat input) (concat weight) (Z.of_nat w) (Z.of_nat w) r qi qw = Ok (Some (ri, rw, ro)) /\
    qshape B no out /\
    forall b o, (b < B)%nat -> (o < no)%nat ->
    let cycle := Z.min cyc (p2 w) in
    (Qabs (qentry out b o -
       (dotq n (fun i => sm_quant cycle ri (qentry input b i)) (fun i => sm_quant cycle rw (qentry weight o i))
        + bias_entry bias o)) <= inject_Z (Z.of_nat n * Z.of_nat w) * Qpower 2 (Z.of_nat w + ri + rw))%Q.
Proof.
  intros exti extw w rngi rngw ki kw cyc B n no r qi qw input weight bias Hw Xi Xw Ki Kw Li Lw Ht Hs Hcyc Hi Hwt Hb.
  destruct (hub_new_ok exti extw w rngi rngw ki kw cyc Hw Xi Xw Ki Kw Li Lw Ht) as (c & Ec & Cc & Pc & Tc).
  exists c. split; [exact Ec|]. intros out Ho. unfold hub_linear in Ho.
  replace (Z.of_nat (S w) - 1) with (Z.of_nat w) in Ho by lia.
  destruct (rshift_offset (concat input) (concat weight) (Z.of_nat w) (Z.of_nat w) r qi qw) as [[[[ri rw] ro]|]|e] eqn:Er; cbn [bind] in Ho; try discriminate.
  exists ri, rw, ro. split; [reflexivity|].
  assert (out = hub_forward c ri rw ro input weight bias) as -> by congruence.
  pose proof (p2_ge_1 w). rewrite <- Cc.
  apply (hub_forward_bound c w (hub_ctlee exti extw ki kw w) ri rw ro B n no input weight bias); try assumption.
  - unfold hub_ctlee. destruct (is_tc kw); rewrite Hs; apply sobol_low_discrepancy; try assumption; lia.
  - rewrite Cc. lia.
  - apply (hub_offsets _ _ _ _ _ _ _ _ _ Er).
Qed.

Lemma qsign_pos x : (0 < x)%Q -> qsign x = 1.
Proof. intros H. unfold qsign. destruct (Qcompare_spec x 0) as [E|E|E]; [lra|lra|reflexivity]. Qed.
Lemma qsign_neg x : (x < 0)%Q -> qsign x = -1.
Proof. intros H. unfold qsign. destruct (Qcompare_spec x 0) as [E|E|E]; [lra|reflexivity|lra]. Qed.
Lemma qsign_zero x : (x == 0)%Q -> qsign x = 0.
Proof. intros H. unfold qsign. destruct (Qcompare_spec x 0) as [E|E|E]; [reflexivity|lra|lra]. Qed.
(** Sign and zero. *)
Theorem hub_mul_sign : forall c w l ri rw x y, table_of c w l -> 1 <= hub_cycle c <= p2 w ->
  0 <= qsign x * qsign y * hub_mul c ri rw x y /\ ((x == 0 \/ y == 0)%Q -> hub_mul c ri rw x y = 0).
Proof.
  intros c w l ri rw x y HT Hc. rewrite hub_mul_eq.
  destruct (hub_mag_eq (hub_cycle c) ri x ltac:(lia)) as [_ Rx]. destruct (hub_mag_eq (hub_cycle c) rw y ltac:(lia)) as [_ Ry].
  rewrite HT by lia. set (e := below _ _ _). assert (0 <= e) by apply below_bounds. split.
  - pose proof (Z.square_nonneg (qsign x * qsign y)). nia.
  - intros [E|E]; rewrite (qsign_zero _ E); lia.
Qed.

Lemma Qtri x : (0 < x \/ x == 0 \/ x < 0)%Q.
Proof. destruct (Qlt_le_dec 0 x) as [H|H]; [auto|]. apply Qle_lteq in H. destruct H; auto. Qed.

Lemma step_round_opp r x : step_round r (- x) = - step_round r x.
Proof. unfold step_round. rewrite <- qround_opp. apply qround_comp. unfold Qdiv. ring. Qed.

Lemma step_round_near r x : (Qabs (x - inject_Z (step_round r x) * Qpower 2 r) <= Qpower 2 r * (1 # 2))%Q.
Proof.
  change (Qpower 2 r) with (qpow2 r). pose proof (qpow2_pos r) as P. unfold step_round. change (Qpower 2 r) with (qpow2 r).
  pose proof (qround_abs (x / qpow2 r)) as A. set (z := qround (x / qpow2 r)) in *. clearbody z.
  assert (E : (x - inject_Z z * qpow2 r == (x / qpow2 r - inject_Z z) * qpow2 r)%Q) by (field; lra).
  rewrite E, Qabs_Qmult, (Qabs_pos (qpow2 r)) by lra. rewrite Qmult_comm. apply Qmult_le_l; assumption.
Qed.

Lemma step_round_nonneg r x : (0 <= x)%Q -> 0 <= step_round r x.
Proof.
  intros H. unfold step_round. change 0 with (qround (inject_Z 0)) at 1. apply qround_mono. change (inject_Z 0) with 0%Q.
  pose proof (qpow2_pos r) as P. change (Qpower 2 r) with (qpow2 r). apply Qle_shift_div_l; [exact P|]. lra.
Qed.

Lemma step_round_gt r x k : (0 <= x)%Q -> k < step_round r x -> (inject_Z k * Qpower 2 r <= x)%Q.
Proof.
  intros H K. pose proof (step_round_near r x) as A. apply Qabs_Qle_condition in A. destruct A as [_ A].
  pose proof (step_round_near r x) as A'. apply Qabs_Qle_condition in A'. destruct A' as [A' _].
  change (Qpower 2 r) with (qpow2 r) in *. pose proof (qpow2_pos r) as P.
  assert (L : (inject_Z k + 1 <= inject_Z (step_round r x))%Q).
  { change 1%Q with (inject_Z 1). rewrite <- inject_Z_plus. apply inject_Z_le_iff. lia. }
  nra.
Qed.

Theorem sm_quant_spec : forall cycle r x, 1 <= cycle ->
  near_or_saturated (Qpower 2 r) (inject_Z (cycle - 1) * Qpower 2 r) x (sm_quant cycle r x) /\
  (0 <= x * sm_quant cycle r x)%Q /\ ((x == 0)%Q -> (sm_quant cycle r x == 0)%Q) /\ (sm_quant cycle r (- x) == - sm_quant cycle r x)%Q.
Proof.
  intros cycle r x Hc.
  assert (Pos : forall x, (0 < x)%Q -> near_or_saturated (Qpower 2 r) (inject_Z (cycle - 1) * Qpower 2 r) x (sm_quant cycle r x) /\ (0 <= sm_quant cycle r x)%Q).
  { clear x. intros x Hx. unfold near_or_saturated, sm_quant. rewrite (qsign_pos x Hx), Z.mul_1_l.
    pose proof (step_round_nonneg r x ltac:(lra)) as N. rewrite (Z.abs_eq _ N).
    pose proof (qpow2_pos r) as P. change (Qpower 2 r) with (qpow2 r) in *.
    destruct (Z_le_gt_dec (step_round r x) (cycle - 1)) as [L|G].
    - rewrite Z.min_r by exact L. split; [left; apply step_round_near|].
      apply Qmult_le_0_compat; [|lra]. change 0%Q with (inject_Z 0). apply inject_Z_le_iff. exact N.
    - rewrite Z.min_l by lia.
      assert (0 <= inject_Z (cycle - 1))%Q by (change 0%Q with (inject_Z 0); apply inject_Z_le_iff; lia).
      assert (0 <= inject_Z (cycle - 1) * qpow2 r)%Q by (apply Qmult_le_0_compat; lra).
      split; [|assumption]. right. rewrite Qabs_pos by assumption. split; [reflexivity|].
      rewrite (Qabs_pos x) by lra. split; [apply (step_round_gt r x); [lra|lia]|]. apply Qmult_le_0_compat; lra. }
  assert (Opp : forall x, (sm_quant cycle r (- x) == - sm_quant cycle r x)%Q).
  { clear x. intros x. unfold sm_quant. rewrite step_round_opp, Z.abs_opp.
    assert (qsign (- x) = - qsign x) as ->.
    { destruct (Qtri x) as [H|[H|H]]; [rewrite (qsign_pos x H), (qsign_neg (- x)) by lra|rewrite (qsign_zero x H), (qsign_zero (- x)) by lra|
        rewrite (qsign_neg x H), (qsign_pos (- x)) by lra]; reflexivity. }
    rewrite Z.mul_opp_l, inject_Z_opp. ring. }
  assert (Zero : (x == 0)%Q -> (sm_quant cycle r x == 0)%Q).
  { intros H. unfold sm_quant. rewrite (qsign_zero x H). change (inject_Z (0 * _)) with 0%Q. ring. }
  destruct (Qtri x) as [H|[H|H]].
  - destruct (Pos x H) as [P1 P2]. split; [exact P1|]. split; [apply Qmult_le_0_compat; lra|]. split; [exact Zero|apply Opp].
  - split; [|split; [|split; [exact Zero|apply Opp]]].
    + unfold near_or_saturated. left. pose proof (Zero H) as Z0. pose proof (qpow2_pos r). change (Qpower 2 r) with (qpow2 r).
      apply Qabs_Qle_condition. lra.
    + pose proof (Zero H) as Z0. nra.
  - destruct (Pos (- x)%Q ltac:(lra)) as [P1 P2]. pose proof (Opp x) as O. rewrite O in P2.
    split; [|split; [|split; [exact Zero|apply Opp]]].
    + unfold near_or_saturated in *. rewrite O in P1. destruct P1 as [P1|(P1 & P3 & P4)]; [left|right].
      * rewrite <- Qabs_opp. assert (E : (- (x - sm_quant cycle r x) == - x - - sm_quant cycle r x)%Q) by ring. rewrite E. exact P1.
      * rewrite Qabs_opp in P1, P3. split; [exact P1|]. split; [exact P3|]. assert (E : (- x * - sm_quant cycle r x == x * sm_quant cycle r x)%Q) by ring. rewrite <- E. exact P4.
    + set (q := sm_quant cycle r x) in *. clearbody q. nra.
Qed.

(** ** Fixed point layer *)

Lemma fxp_quant_eq m r x : 1 <= m -> (inject_Z (fxp_quant r m x) * Qpower 2 r == fx_quant m r x)%Q.
Proof.
  intros Hm. unfold fxp_quant, fx_quant. rewrite qshr_step_round. set (z := step_round r x).
  assert (zclamp (1 - m) (m - 1) z = Z.max (1 - m) (Z.min (m - 1) z)) as -> by (unfold zclamp; lia). reflexivity.
Qed.

Theorem fxp_forward_eq : forall ri rw mi mw B n no input weight bias, 1 <= mi -> 1 <= mw ->
  qshape B n input -> qshape no n weight -> bias_ok no bias ->
  let out := fxp_forward ri rw (0 - ri - rw) mi mw input weight bias in
  qshape B no out /\ forall b o, (b < B)%nat -> (o < no)%nat ->
  (qentry out b o == dotq n (fun i => fx_quant mi ri (qentry input b i)) (fun i => fx_quant mw rw (qentry weight o i)) + bias_entry bias o)%Q.
Proof.
  intros ri rw mi mw B n no input weight bias Hmi Hmw Hi Hw Hb out. unfold out, fxp_forward.
  set (F := fun x y => qshr (inject_Z (zsum (map2 (fun a b => fxp_quant ri mi a * fxp_quant rw mw b) x y))) (0 - ri - rw)).
  split; [apply (layer_shape F B n no); assumption|]. intros b o Lb Lo.
  change (fun x => map (fun w => qshr (inject_Z (zsum (map2 (fun a b0 => fxp_quant ri mi a * fxp_quant rw mw b0) x w))) (0 - ri - rw)) weight)
    with (fun x => map (F x) weight).
  rewrite (layer_entry F B n no input weight bias b o Hi Hw Hb Lb Lo). unfold F. clear F out.
  rewrite (map2_seq _ n _ _ 0%Q 0%Q) by (eapply qshape_row; eassumption).
  set (f := fun i => fxp_quant ri mi (nth i (nth b input []) 0%Q) * fxp_quant rw mw (nth i (nth o weight []) 0%Q)).
  assert (E : (dotq n (fun i => fx_quant mi ri (qentry input b i)) (fun i => fx_quant mw rw (qentry weight o i))
               == inject_Z (zsum (tab n f)) * qpow2 (ri + rw))%Q).
  { rewrite <- qsum_tab_scaled. unfold dotq. apply (qsum_tab_ext n). intros i _. unfold f.
    rewrite <- (fxp_quant_eq mi), <- (fxp_quant_eq mw) by assumption. unfold qentry.
    change (Qpower 2) with qpow2. rewrite qpow2_add, !inject_Z_mult. ring. }
  rewrite E. unfold qshr. apply Qplus_inj_r.
  assert (P : (qpow2 (0 - ri - rw) * qpow2 (ri + rw) == 1)%Q).
  { rewrite <- !qpow2_add. replace (_ + _) with 0 by lia. reflexivity. }
  pose proof (qpow2_pos (0 - ri - rw)) as Pp. set (q := qpow2 (0 - ri - rw)) in *. apply (Qmult_inj_r _ _ q); [lra|].
  transitivity (inject_Z (zsum (tab n f)) * 1)%Q; [field; lra|]. rewrite <- P. ring.
Qed.

Lemma fx_quant_opp m r x : 1 <= m -> (fx_quant m r (- x) == - fx_quant m r x)%Q.
Proof.
  intros Hm. unfold fx_quant. rewrite step_round_opp. set (z := step_round r x).
  replace (Z.max (1 - m) (Z.min (m - 1) (- z))) with (- Z.max (1 - m) (Z.min (m - 1) z)) by lia. rewrite inject_Z_opp. ring.
Qed.

Theorem fx_quant_spec : forall m r x, 1 <= m ->
  near_or_saturated (Qpower 2 r) (inject_Z (m - 1) * Qpower 2 r) x (fx_quant m r x) /\
  (Z.abs (step_round r x) <= m - 1 -> (Qabs (x - fx_quant m r x) <= Qpower 2 r * (1 # 2))%Q) /\
  (forall z, (x == inject_Z z * Qpower 2 r)%Q -> Z.abs z <= m - 1 -> (fx_quant m r x == x)%Q).
Proof.
  intros m r x Hm.
  assert (Near : Z.abs (step_round r x) <= m - 1 -> (Qabs (x - fx_quant m r x) <= Qpower 2 r * (1 # 2))%Q).
  { intros L. unfold fx_quant. replace (Z.max (1 - m) (Z.min (m - 1) (step_round r x))) with (step_round r x) by lia. apply step_round_near. }
  assert (Pos : forall x, (0 <= x)%Q -> near_or_saturated (Qpower 2 r) (inject_Z (m - 1) * Qpower 2 r) x (fx_quant m r x)).
  { clear x Near. intros x Hx. pose proof (step_round_nonneg r x Hx) as N. pose proof (qpow2_pos r) as P. unfold near_or_saturated, fx_quant.
    change (Qpower 2 r) with (qpow2 r) in *.
    destruct (Z_le_gt_dec (step_round r x) (m - 1)) as [L|G].
    - left. replace (Z.max (1 - m) (Z.min (m - 1) (step_round r x))) with (step_round r x) by lia. apply step_round_near.
    - right. replace (Z.max (1 - m) (Z.min (m - 1) (step_round r x))) with (m - 1) by lia.
      assert (0 <= inject_Z (m - 1))%Q by (change 0%Q with (inject_Z 0); apply inject_Z_le_iff; lia).
      assert (0 <= inject_Z (m - 1) * qpow2 r)%Q by (apply Qmult_le_0_compat; lra).
      rewrite Qabs_pos by assumption. split; [reflexivity|]. rewrite (Qabs_pos x) by lra.
      split; [apply (step_round_gt r x); [lra|lia]|]. apply Qmult_le_0_compat; lra. }
  split; [|split; [exact Near|]].
  - destruct (Qlt_le_dec x 0) as [H|H]; [|apply Pos, H].
    pose proof (Pos (- x)%Q ltac:(lra)) as P1. unfold near_or_saturated in *. pose proof (fx_quant_opp m r x Hm) as O. rewrite O in P1.
    destruct P1 as [P1|(P1 & P3 & P4)]; [left|right].
    + rewrite <- Qabs_opp. assert (E : (- (x - fx_quant m r x) == - x - - fx_quant m r x)%Q) by ring. rewrite E. exact P1.
    + rewrite Qabs_opp in P1, P3. split; [exact P1|]. split; [exact P3|].
      assert (E : (- x * - fx_quant m r x == x * fx_quant m r x)%Q) by ring. rewrite <- E. exact P4.
  - intros z Ez Hz. unfold fx_quant. assert (step_round r x = z) as ->.
    { unfold step_round. rewrite <- (qround_Z z). apply qround_comp. rewrite Ez. pose proof (qpow2_pos r). change (Qpower 2 r) with (qpow2 r). field. lra. }
    replace (Z.max (1 - m) (Z.min (m - 1) z)) with z by lia. symmetry. exact Ez.
Qed.

Lemma dotq_ext n x x' y y' : (forall i, (i < n)%nat -> (x i == x' i /\ y i == y' i)%Q) -> (dotq n x y == dotq n x' y')%Q.
Proof. intros H. apply (qsum_tab_ext n). intros i Hi. destruct (H i Hi) as [E1 E2]. rewrite E1, E2. reflexivity. Qed.

Theorem fxp_exact : forall ri rw mi mw B n no input weight bias, 1 <= mi -> 1 <= mw ->
  qshape B n input -> qshape no n weight -> bias_ok no bias ->
  (forall b i, (b < B)%nat -> (i < n)%nat -> exists z, (qentry input b i == inject_Z z * Qpower 2 ri)%Q /\ Z.abs z <= mi - 1) ->
  (forall o i, (o < no)%nat -> (i < n)%nat -> exists z, (qentry weight o i == inject_Z z * Qpower 2 rw)%Q /\ Z.abs z <= mw - 1) ->
  forall b o, (b < B)%nat -> (o < no)%nat ->
  (qentry (fxp_forward ri rw (0 - ri - rw) mi mw input weight bias) b o ==
   dotq n (qentry input b) (qentry weight o) + bias_entry bias o)%Q.
Proof.
  intros ri rw mi mw B n no input weight bias Hmi Hmw Hi Hw Hb Xi Xw b o Lb Lo.
  destruct (fxp_forward_eq ri rw mi mw B n no input weight bias Hmi Hmw Hi Hw Hb) as [_ E]. rewrite (E b o Lb Lo).
  apply Qplus_inj_r. apply dotq_ext. intros i Hi'. split.
  - destruct (Xi b i Lb Hi') as (z & E1 & E2). apply (proj2 (proj2 (fx_quant_spec mi ri _ Hmi)) z E1 E2).
  - destruct (Xw o i Lo Hi') as (z & E1 & E2). apply (proj2 (proj2 (fx_quant_spec mw rw _ Hmw)) z E1 E2).
Qed.

(** Perturbing both operands of a dot product. *)
Theorem dot_perturb : forall n x x' y y',
  (Qabs (dotq n x' y' - dotq n x y) <= qsum (map (fun i => Qabs (x i - x' i) * Qabs (y i) + Qabs (x' i) * Qabs (y i - y' i)) (seq 0 n)))%Q.
Proof.
  intros n x x' y y'. unfold dotq. change (map ?f (seq 0 n)) with (tab n f).
  induction n as [|n IH]; [cbn; apply Qle_refl|]. rewrite !tab_S, !qsum_app. cbn [qsum].
  set (A := qsum (tab n (fun i => (x' i * y' i)%Q))) in *. set (C := qsum (tab n (fun i => (x i * y i)%Q))) in *.
  assert (E : (A + (x' n * y' n + 0) - (C + (x n * y n + 0)) == (A - C) + (- ((x n - x' n) * y n) + - (x' n * (y n - y' n))))%Q) by ring.
  rewrite E. eapply Qle_trans; [apply Qabs_triangle|]. apply Qplus_le_compat; [exact IH|].
  eapply Qle_trans; [apply Qabs_triangle|]. rewrite !Qabs_opp, !Qabs_Qmult. lra.
Qed.

(** With quantile 1 the shift leaves the data inside the range. *)
Definition fx_slack (r : rounding) : Q := match r with RFloor => 1%Q | _ => (1 # 2)%Q end.

Lemma qround_le_of_lt q k : (q < inject_Z k + (1 # 2))%Q -> qround q <= k.
Proof.
  intros H. destruct (qround_bounds q) as [_ U]. assert (L : (inject_Z (qround q) < inject_Z (k + 1))%Q).
  { rewrite inject_Z_plus. change (inject_Z 1) with 1%Q. lra. }
  pose proof (proj1 (inject_Z_lt_iff _ _) L). lia.
Qed.

Lemma fx_quant_near W r rs s x : (1 <= W)%nat -> normalised r (Z.of_nat W - 1) (s / Qpower 2 rs) -> (Qabs x <= s)%Q ->
  (Qabs (x - fx_quant (p2 W) rs x) <= fx_slack r * Qpower 2 rs)%Q.
Proof.
  intros HW HN Hx. pose proof (qpow2_pos rs) as P. pose proof (p2_ge_1 W) as PW.
  assert (Pos : forall x, (0 <= x)%Q -> (x <= s)%Q -> (Qabs (x - fx_quant (p2 W) rs x) <= fx_slack r * Qpower 2 rs)%Q).
  { clear x Hx. intros x X0 Xs.
    assert (Y : (x / Qpower 2 rs <= s / Qpower 2 rs)%Q).
    { change (Qpower 2 rs) with (qpow2 rs). unfold Qdiv. apply Qmult_le_compat_r; [exact Xs|]. apply Qlt_le_weak, Qinv_lt_0_compat, P. }
    assert (Y0 : (0 <= x / Qpower 2 rs)%Q).
    { change (Qpower 2 rs) with (qpow2 rs). unfold Qdiv. apply Qmult_le_0_compat; [exact X0|]. apply Qlt_le_weak, Qinv_lt_0_compat, P. }
    destruct (fx_quant_spec (p2 W) rs x PW) as (_ & Near & _).
    assert (Half : step_round rs x <= p2 W - 1 -> (Qabs (x - fx_quant (p2 W) rs x) <= (1 # 2) * Qpower 2 rs)%Q).
    { intros L. pose proof (step_round_nonneg rs x X0). rewrite Qmult_comm. apply Near. lia. }
    assert (PQ : (qpow2 (Z.of_nat W) == inject_Z (p2 W))%Q) by (apply qpow2_Z; lia).
    assert (PW2 : (2 <= inject_Z (p2 W))%Q).
    { change 2%Q with (inject_Z 2). apply inject_Z_le_iff. pose proof (p2_le 1 W HW). change (p2 1) with 2 in *. lia. }
    assert (D1 : (inject_Z (p2 W - 1) == inject_Z (p2 W) - 1)%Q) by (unfold Z.sub; rewrite inject_Z_plus; reflexivity).
    set (y := (x / Qpower 2 rs)%Q) in *. set (t := (s / Qpower 2 rs)%Q) in *.
    destruct r; cbn [normalised fx_slack] in *.
    - apply Half. unfold step_round. fold y. apply qround_le_of_lt. rewrite D1.
      destruct HN as [_ HN]. change (Qpower 2) with qpow2 in HN.
      replace (2 * (Z.of_nat W - 1) + 1) with (Z.of_nat W + Z.of_nat W - 1) in HN by lia.
      unfold Z.sub in HN. rewrite !qpow2_add, PQ in HN. change (qpow2 (- (1))) with (1 # 2)%Q in HN. clearbody y t.
      set (m := inject_Z (p2 W)) in *. clearbody m. destruct (Qlt_le_dec y (m - (1 # 2))) as [L|L]; [lra|exfalso].
      assert (T0 : (m - (1 # 2) <= t)%Q) by lra. clear L Y Y0 Half Near D1 PQ.
      assert (T1 : ((m - (1 # 2)) * (m - (1 # 2)) <= t * t)%Q) by (apply Qmult_le_compat_nonneg; split; lra).
      clear - T1 HN PW2. nra.
    - destruct HN as [_ HN]. change (Qpower 2) with qpow2 in HN. replace (Z.of_nat W - 1 + 1) with (Z.of_nat W) in HN by lia. rewrite PQ in HN.
      destruct (Z_le_gt_dec (step_round rs x) (p2 W - 1)) as [L|G].
      + eapply Qle_trans; [apply Half, L|]. change (Qpower 2 rs) with (qpow2 rs). lra.
      + assert (E : (fx_quant (p2 W) rs x == (inject_Z (p2 W) - 1) * qpow2 rs)%Q).
        { unfold fx_quant. replace (Z.max (1 - p2 W) (Z.min (p2 W - 1) (step_round rs x))) with (p2 W - 1) by lia. rewrite D1. reflexivity. }
        rewrite E. destruct (qround_bounds y) as [_ U]. change (qround y) with (step_round rs x) in U.
        assert (G' : (inject_Z (p2 W) <= inject_Z (step_round rs x))%Q) by (apply inject_Z_le_iff; lia).
        assert (Ex : (x == y * qpow2 rs)%Q) by (unfold y; change (Qpower 2 rs) with (qpow2 rs); field; lra).
        rewrite Ex. change (Qpower 2 rs) with (qpow2 rs).
        assert (E4 : (y * qpow2 rs - (inject_Z (p2 W) - 1) * qpow2 rs == (y - (inject_Z (p2 W) - 1)) * qpow2 rs)%Q) by ring.
        rewrite E4, Qabs_Qmult, (Qabs_pos (qpow2 rs)) by lra. apply Qmult_le_compat_r; [|lra].
        clear E E4 Ex. clearbody y t. apply Qabs_Qle_condition. lra.
    - apply Half. unfold step_round. fold y. apply qround_le_of_lt. rewrite D1.
      destruct HN as [_ HN]. change (Qpower 2) with qpow2 in HN. unfold Z.sub in HN. rewrite qpow2_add, PQ in HN.
      change (qpow2 (- (1))) with (1 # 2)%Q in HN. clearbody y t. lra. }
  destruct (Qlt_le_dec x 0) as [H|H].
  - rewrite Qabs_neg in Hx by lra. pose proof (Pos (- x)%Q ltac:(lra) Hx) as Q1. pose proof (fx_quant_opp (p2 W) rs x PW) as O.
    rewrite O in Q1. rewrite <- Qabs_opp. assert (E : (- (x - fx_quant (p2 W) rs x) == - x - - fx_quant (p2 W) rs x)%Q) by ring. rewrite E. exact Q1.
  - rewrite Qabs_pos in Hx by exact H. apply Pos; assumption.
Qed.

Lemma entry_in_concat r c (m : list (list Q)) b i : qshape r c m -> (b < r)%nat -> (i < c)%nat -> In (qentry m b i) (concat m).
Proof.
  intros Hs Hb Hi. apply in_concat. exists (nth b m []). split; [apply nth_In; destruct Hs; lia|].
  unfold qentry. apply nth_In. rewrite (qshape_row r c m b Hs Hb). exact Hi.
Qed.

Lemma max_abs_exists (l : list Q) : l <> [] -> exists m, is_max_abs l m.
Proof. intros H. eexists. apply extremes_max_abs, (sorted_extremes l H). Qed.

Lemma scale_bounds_entry r c m q b i : qshape r c m -> (b < r)%nat -> (i < c)%nat -> (q == 1)%Q -> (Qabs (qentry m b i) <= quantile_scale (concat m) q)%Q.
Proof.
  intros Hs Hb Hi Hq. pose proof (entry_in_concat r c m b i Hs Hb Hi) as HI.
  assert (NE : concat m <> []) by (destruct (concat m); [destruct HI|discriminate]).
  destruct (max_abs_exists _ NE) as [mx Hm]. destruct (quantile_scale_spec (concat m) q mx Hm) as [E _]. rewrite (E Hq).
  destruct Hm as [_ Hm]. rewrite Forall_forall in Hm. apply Hm, HI.
Qed.

Theorem fxp_linear_error : forall widthi widthw r qi qw B n no input weight bias out,
  (1 <= widthi)%nat -> (1 <= widthw)%nat -> (qi == 1)%Q -> (qw == 1)%Q ->
  qshape B n input -> qshape no n weight -> bias_ok no bias ->
  fxp_linear widthi widthw r qi qw input weight bias = Ok (Some out) ->
  exists ri rw ro, rshift_offset (concat input) (concat weight) (Z.of_nat widthi - 1) (Z.of_nat widthw - 1) r qi qw = Ok (Some (ri, rw, ro)) /\
  qshape B no out /\ forall b o, (b < B)%nat -> (o < no)%nat ->
    let dx := (fx_slack r * Qpower 2 ri)%Q in
    let dw := (fx_slack r * Qpower 2 rw)%Q in
    (Qabs (qentry out b o - (dotq n (qentry input b) (qentry weight o) + bias_entry bias o)) <=
     qsum (map (fun i => dx * Qabs (qentry weight o i) + (Qabs (qentry input b i) + dx) * dw) (seq 0 n)))%Q.
Proof.
  intros widthi widthw r qi qw B n no input weight bias out Hwi Hww Hqi Hqw Hi Hw Hb Ho. unfold fxp_linear in Ho.
  destruct (rshift_offset (concat input) (concat weight) (Z.of_nat widthi - 1) (Z.of_nat widthw - 1) r qi qw) as [[[[ri rw] ro]|]|e] eqn:Er; cbn [bind] in Ho; try discriminate.
  exists ri, rw, ro. split; [reflexivity|].
  assert (out = fxp_forward ri rw (0 - ri - rw) (p2 widthi) (p2 widthw) input weight bias) as -> by congruence.
  destruct (fxp_forward_eq ri rw (p2 widthi) (p2 widthw) B n no input weight bias (p2_ge_1 _) (p2_ge_1 _) Hi Hw Hb) as [Sh E].
  split; [exact Sh|]. intros b o Lb Lo dx dw. rewrite (E b o Lb Lo).
  assert (NEi : concat input <> []) by (intros X; rewrite X in Er; discriminate).
  assert (NEw : concat weight <> []) by (intros X; rewrite X in Er; destruct (concat input); discriminate).
  destruct (rshift_offset_spec (concat input) (concat weight) (Z.of_nat widthi - 1) (Z.of_nat widthw - 1) r qi qw NEi NEw) as [Z0 Z1].
  set (si := quantile_scale (concat input) qi) in *. set (sw := quantile_scale (concat weight) qw) in *.
  destruct (Qeq_dec si 0) as [N1|N1]; [rewrite Z0 in Er by (left; exact N1); discriminate|].
  destruct (Qeq_dec sw 0) as [N2|N2]; [rewrite Z0 in Er by (right; exact N2); discriminate|].
  destruct (Z1 N1 N2) as (ri' & rw' & ro' & Er' & Ni & Nw & _). rewrite Er in Er'.
  assert (ri' = ri) as -> by congruence. assert (rw' = rw) as -> by congruence. clear Er' Z0 Z1.
  set (x' := fun i => fx_quant (p2 widthi) ri (qentry input b i)). set (w' := fun i => fx_quant (p2 widthw) rw (qentry weight o i)).
  assert (E1 : (dotq n x' w' + bias_entry bias o - (dotq n (qentry input b) (qentry weight o) + bias_entry bias o)
                == dotq n x' w' - dotq n (qentry input b) (qentry weight o))%Q) by ring.
  rewrite E1. eapply Qle_trans; [apply dot_perturb|].
  assert (Mono : forall f g, (forall i, (i < n)%nat -> (f i <= g i)%Q) -> (qsum (tab n f) <= qsum (tab n g))%Q).
  { clear. intros f g. induction n as [|n IH]; intros H; [apply Qle_refl|]. rewrite !tab_S, !qsum_app. apply Qplus_le_compat; [apply IH; intros; apply H; lia|].
    cbn [qsum]. pose proof (H n ltac:(lia)). lra. }
  apply Mono. intros i Hi'.
  pose proof (fx_quant_near widthi r ri si (qentry input b i) Hwi Ni (scale_bounds_entry B n input qi b i Hi Lb Hi' Hqi)) as A1.
  pose proof (fx_quant_near widthw r rw sw (qentry weight o i) Hww Nw (scale_bounds_entry no n weight qw o i Hw Lo Hi' Hqw)) as A2.
  fold (x' i) dx in A1. fold (w' i) dw in A2. set (x := qentry input b i) in *. set (w := qentry weight o i) in *.
  assert (A3 : (Qabs (x' i) <= Qabs x + dx)%Q).
  { assert (E2 : (x' i == x + - (x - x' i))%Q) by ring. rewrite E2 at 1. eapply Qle_trans; [apply Qabs_triangle|]. rewrite Qabs_opp. lra. }
  pose proof (Qabs_nonneg w). pose proof (Qabs_nonneg (x' i)). pose proof (Qabs_nonneg (w - w' i)). pose proof (Qabs_nonneg (x - x' i)).
  apply Qplus_le_compat; [apply Qmult_le_compat_r; assumption|].
  apply (Qle_trans _ ((Qabs x + dx) * Qabs (w - w' i))); [apply Qmult_le_compat_r; assumption|].
  rewrite !(Qmult_comm (Qabs x + dx)). apply Qmult_le_compat_r; [exact A2|]. lra.
Qed.
