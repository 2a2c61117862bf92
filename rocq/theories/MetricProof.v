(** Proofs about /repo/metric/metric.py and the generator/metric compositions. *)
Require Import Verif.BaseLemmas Verif.GenModel Verif.GenProof Verif.MetricModel.
From Coq Require Import Lqa.
Open Scope Z_scope.

(** ** Correlation: counters *)
Definition two_arg (h : list (Z * Z)) : list (Z * option Z) := map (fun p => (fst p, Some (snd p))) h.

Lemma corr_counters h : Forall bitpair h ->
  let s := corr_monitors corr_init (two_arg h) in
  co_a s = pairs 1 1 h /\ co_b s = pairs 1 0 h /\ co_c s = pairs 0 1 h /\ co_d s = pairs 0 0 h /\
  co_len s = zlen h /\ co_in1d s = 0.
Proof.
  cbn zeta. unfold corr_monitors, two_arg. induction h as [|p h IH] using rev_ind; intros Hb.
  - repeat split; reflexivity.
  - apply Forall_app in Hb. destruct Hb as [Hb Hp]. inversion Hp as [|? ? [H1 H2] _]; subst.
    specialize (IH Hb). rewrite map_app, fold_left_app. cbn [map fold_left].
    set (s := fold_left _ _ corr_init) in *. clearbody s. destruct IH as (I1 & I2 & I3 & I4 & I5 & I6).
    unfold corr_monitor, pairs in *. rewrite !countb_app. cbn [co_a co_b co_c co_d co_len co_in1d].
    rewrite <- I1, <- I2, <- I3, <- I4, I5, I6, zlen_snoc. destruct p as [x y]. cbn [fst snd] in *.
    cbn [countb fst snd].
    destruct H1 as [->| ->], H2 as [->| ->]; cbn [Z.eqb Pos.eqb andb b2z]; repeat split; lia.
Qed.

Lemma pairs_nonneg u v h : 0 <= pairs u v h.
Proof. apply countb_nonneg. Qed.

Lemma pairs_total h : Forall bitpair h -> pairs 1 1 h + pairs 1 0 h + pairs 0 1 h + pairs 0 0 h = zlen h.
Proof.
  induction 1 as [|p h [H1 H2] Hh IH]; [reflexivity|]. unfold pairs in *. cbn [countb]. unfold zlen in *. cbn [length].
  destruct p as [x y]. cbn [fst snd] in *. destruct H1 as [->| ->], H2 as [->| ->]; cbn [Z.eqb Pos.eqb andb]; lia.
Qed.

Lemma pairs_fst h : Forall bitpair h -> pairs 1 1 h + pairs 1 0 h = ones (map fst h).
Proof.
  induction 1 as [|p h [H1 H2] Hh IH]; [reflexivity|]. unfold pairs in *. cbn [countb map]. rewrite ones_cons.
  destruct p as [x y]. cbn [fst snd] in *. destruct H1 as [->| ->], H2 as [->| ->]; cbn [Z.eqb Pos.eqb andb]; lia.
Qed.
Lemma pairs_snd h : Forall bitpair h -> pairs 1 1 h + pairs 0 1 h = ones (map snd h).
Proof.
  induction 1 as [|p h [H1 H2] Hh IH]; [reflexivity|]. unfold pairs in *. cbn [countb map]. rewrite ones_cons.
  destruct p as [x y]. cbn [fst snd] in *. destruct H1 as [->| ->], H2 as [->| ->]; cbn [Z.eqb Pos.eqb andb]; lia.
Qed.

(** ** Correlation: value *)
Definition corr_val (a b c d : Z) : Q :=
  corr_forward {| co_d := d; co_c := c; co_b := b; co_a := a; co_len := a + b + c + d; co_in1d := 0 |}.

Definition corr_den (a b c d : Z) : Z :=
  if a * d - b * c >? 0 then (if b <=? c then (a + b) * (b + d) else (a + c) * (c + d))
  else (if d <=? a then (b + d) * (c + d) else (a + b) * (a + c)).

Lemma corr_val_eq a b c d : 0 <= a -> 0 <= b -> 0 <= c -> 0 <= d ->
  (corr_val a b c d == inject_Z (a * d - b * c) / inject_Z (corr_den a b c d))%Q /\
  (a * d - b * c <> 0 -> 0 < corr_den a b c d).
Proof.
  intros Ha Hb Hc Hd. unfold corr_val, corr_forward, corr_den. cbn [co_a co_b co_c co_d co_len].
  set (N := a * d - b * c). destruct (Z.gtb_spec N 0) as [G|L]; cbn [b2z].
  - assert (0 < a /\ 0 < d) as [Pa Pd] by (unfold N in G; nia).
    assert (E : Z.min (a + b) (a + c) * (a + b + c + d) - (a + b) * (a + c) =
                if b <=? c then (a + b) * (b + d) else (a + c) * (c + d)).
    { destruct (Z.leb_spec b c); [rewrite Z.min_l by lia|rewrite Z.min_r by lia]; ring. }
    rewrite E. set (D := if b <=? c then _ else _) in *.
    assert (PD : 0 < D) by (unfold D; destruct (b <=? c); nia).
    split; [|intros _; exact PD]. rewrite (Z.max_l D 1) by lia.
    change (inject_Z 1) with 1%Q. change (inject_Z (1 - 1)) with 0%Q. ring.
  - change (1 - 0) with 1. change (inject_Z 0) with 0%Q. change (inject_Z 1) with 1%Q.
    assert (E : (a + b) * (a + c) - Z.max (a - d) 0 * (a + b + c + d) =
                if d <=? a then (b + d) * (c + d) else (a + b) * (a + c)).
    { destruct (Z.leb_spec d a); [rewrite Z.max_l by lia|rewrite Z.max_r by lia]; ring. }
    rewrite E. set (D := if d <=? a then _ else _) in *.
    assert (PD : N <> 0 -> 0 < D).
    { intros Hn. assert (0 < b /\ 0 < c) as [Pb Pc] by (unfold N in *; nia).
      unfold D; destruct (Z.leb_spec d a); nia. }
    split; [|exact PD]. destruct (Z.eq_dec N 0) as [->|Hn].
    + change (inject_Z 0) with 0%Q. unfold Qdiv. ring.
    + rewrite (Z.max_l D 1) by (specialize (PD Hn); lia). ring.
Qed.

Lemma corr_forward_val h : Forall bitpair h ->
  corr_forward (corr_monitors corr_init (two_arg h)) = corr_val (pairs 1 1 h) (pairs 1 0 h) (pairs 0 1 h) (pairs 0 0 h).
Proof.
  intros Hb. destruct (corr_counters h Hb) as (E1 & E2 & E3 & E4 & E5 & _). unfold corr_val.
  set (s := corr_monitors corr_init (two_arg h)) in *. clearbody s. unfold corr_forward.
  cbn [co_a co_b co_c co_d co_len]. rewrite E1, E2, E3, E4, E5, <- (pairs_total h Hb). reflexivity.
Qed.

Lemma inject_nz D : 0 < D -> ~ (inject_Z D == 0)%Q.
Proof. intros H E. apply (proj1 (inject_Z_injective D 0)) in E. lia. Qed.

Lemma zdiv_bounds N D : 0 < D -> - D <= N <= D -> (-(1) <= inject_Z N / inject_Z D /\ inject_Z N / inject_Z D <= 1)%Q.
Proof.
  intros HD HN. assert (PD : (0 < inject_Z D)%Q) by (change 0%Q with (inject_Z 0); apply inject_Z_lt_iff; lia). split.
  - apply Qle_shift_div_l; [exact PD|]. setoid_replace (-(1) * inject_Z D)%Q with (inject_Z (- D)) by (rewrite inject_Z_opp; ring).
    apply inject_Z_le_iff. lia.
  - apply Qle_shift_div_r; [exact PD|]. rewrite Qmult_1_l. apply inject_Z_le_iff. lia.
Qed.

Lemma zdiv_eq1 N D : 0 < D -> ((inject_Z N / inject_Z D == 1)%Q <-> N = D).
Proof.
  intros HD. assert (NZ : ~ (inject_Z D == 0)%Q).
  { apply inject_nz. exact HD. }
  split.
  - intros E. apply inject_Z_injective.
    setoid_replace (inject_Z N) with (inject_Z N / inject_Z D * inject_Z D)%Q by (field; exact NZ). rewrite E. ring.
  - intros ->. field. exact NZ.
Qed.
Lemma zdiv_eqm1 N D : 0 < D -> ((inject_Z N / inject_Z D == -(1))%Q <-> N = - D).
Proof.
  intros HD. assert (NZ : ~ (inject_Z D == 0)%Q).
  { apply inject_nz. exact HD. }
  split.
  - intros E. apply inject_Z_injective. rewrite inject_Z_opp.
    setoid_replace (inject_Z N) with (inject_Z N / inject_Z D * inject_Z D)%Q by (field; exact NZ). rewrite E. ring.
  - intros ->. rewrite inject_Z_opp. field. exact NZ.
Qed.

Lemma corr_bounds a b c d : 0 <= a -> 0 <= b -> 0 <= c -> 0 <= d ->
  (-(1) <= corr_val a b c d /\ corr_val a b c d <= 1)%Q.
Proof.
  intros Ha Hb Hc Hd. destruct (corr_val_eq a b c d Ha Hb Hc Hd) as [-> P].
  destruct (Z.eq_dec (a * d - b * c) 0) as [E|E].
  - rewrite E. change (inject_Z 0) with 0%Q. unfold Qdiv. rewrite Qmult_0_l. split; discriminate.
  - specialize (P E). apply zdiv_bounds; [exact P|]. unfold corr_den in *.
    destruct (Z.gtb_spec (a * d - b * c) 0); [destruct (Z.leb_spec b c); nia|destruct (Z.leb_spec d a); nia].
Qed.

Lemma corr_plus_one a b c d : 0 <= a -> 0 <= b -> 0 <= c -> 0 <= d ->
  ((corr_val a b c d == 1)%Q <-> (b = 0 \/ c = 0) /\ 0 < a /\ 0 < d).
Proof.
  intros Ha Hb Hc Hd. destruct (corr_val_eq a b c d Ha Hb Hc Hd) as [-> P].
  destruct (Z.eq_dec (a * d - b * c) 0) as [E|E].
  - rewrite E. change (inject_Z 0) with 0%Q. unfold Qdiv. rewrite Qmult_0_l. split; [discriminate|].
    intros ([-> | ->] & ? & ?); nia.
  - specialize (P E). rewrite (zdiv_eq1 _ _ P). unfold corr_den in *.
    destruct (Z.gtb_spec (a * d - b * c) 0).
    + assert (0 < a /\ 0 < d) as [Pa Pd] by nia. destruct (Z.leb_spec b c); split; intros H1.
      * split; [left; nia|lia].
      * destruct H1 as [[-> | ->] _]; [ring|]. assert (b = 0) by lia. subst. ring.
      * split; [right; nia|lia].
      * destruct H1 as [[-> | ->] _]; [lia|ring].
    + split; [intros H1; exfalso; lia|]. intros ([-> | ->] & ? & ?); nia.
Qed.

Lemma corr_minus_one a b c d : 0 <= a -> 0 <= b -> 0 <= c -> 0 <= d ->
  ((corr_val a b c d == -(1))%Q <-> (a = 0 \/ d = 0) /\ 0 < b /\ 0 < c).
Proof.
  intros Ha Hb Hc Hd. destruct (corr_val_eq a b c d Ha Hb Hc Hd) as [-> P].
  destruct (Z.eq_dec (a * d - b * c) 0) as [E|E].
  - rewrite E. change (inject_Z 0) with 0%Q. unfold Qdiv. rewrite Qmult_0_l. split; [discriminate|].
    intros ([-> | ->] & ? & ?); nia.
  - specialize (P E). rewrite (zdiv_eqm1 _ _ P). unfold corr_den in *.
    destruct (Z.gtb_spec (a * d - b * c) 0).
    + split; [intros H1; exfalso; lia|]. intros ([-> | ->] & ? & ?); nia.
    + assert (0 < b /\ 0 < c) as [Pb Pc] by nia. destruct (Z.leb_spec d a); split; intros H1.
      * split; [right; nia|lia].
      * destruct H1 as [[-> | ->] _]; [assert (d = 0) by lia; subst|]; ring.
      * split; [left; nia|lia].
      * destruct H1 as [[-> | ->] _]; [ring|lia].
Qed.

Lemma corr_sym a b c d : 0 <= a -> 0 <= b -> 0 <= c -> 0 <= d -> (corr_val a b c d == corr_val a c b d)%Q.
Proof.
  intros Ha Hb Hc Hd. destruct (corr_val_eq a b c d Ha Hb Hc Hd) as [-> P].
  destruct (corr_val_eq a c b d Ha Hc Hb Hd) as [-> _].
  assert (E : a * d - c * b = a * d - b * c) by ring. rewrite E.
  replace (corr_den a c b d) with (corr_den a b c d); [reflexivity|]. unfold corr_den. rewrite E.
  destruct (_ >? 0); [|destruct (d <=? a); ring].
  destruct (Z.leb_spec b c), (Z.leb_spec c b); try lia; try ring. assert (b = c) by lia. subst. ring.
Qed.

Lemma inject_pos n : 0 < n -> (0 < inject_Z n)%Q.
Proof. intros H. change 0%Q with (inject_Z 0). apply inject_Z_lt_iff. exact H. Qed.

Lemma qmin_div x y n : 0 < n -> (qmin (inject_Z x / inject_Z n) (inject_Z y / inject_Z n) == inject_Z (Z.min x y) / inject_Z n)%Q.
Proof.
  intros Hn. pose proof (inject_pos n Hn) as Pn. unfold qmin.
  destruct (Qle_bool_spec (inject_Z x / inject_Z n) (inject_Z y / inject_Z n)) as [H|H].
  - assert (x <= y).
    { apply inject_Z_le_iff. apply (Qmult_le_compat_r _ _ (inject_Z n)) in H; [|lra].
      setoid_replace (inject_Z x / inject_Z n * inject_Z n)%Q with (inject_Z x) in H by (field; lra).
      setoid_replace (inject_Z y / inject_Z n * inject_Z n)%Q with (inject_Z y) in H by (field; lra). exact H. }
    rewrite Z.min_l by lia. reflexivity.
  - assert (y < x).
    { apply inject_Z_lt_iff. apply (Qmult_lt_compat_r _ _ (inject_Z n)) in H; [|lra].
      setoid_replace (inject_Z x / inject_Z n * inject_Z n)%Q with (inject_Z x) in H by (field; lra).
      setoid_replace (inject_Z y / inject_Z n * inject_Z n)%Q with (inject_Z y) in H by (field; lra). exact H. }
    rewrite Z.min_r by lia. reflexivity.
Qed.

Lemma qmax_div x n : 0 < n -> (qmax (inject_Z x / inject_Z n) 0 == inject_Z (Z.max x 0) / inject_Z n)%Q.
Proof.
  intros Hn. pose proof (inject_pos n Hn) as Pn. unfold qmax.
  assert (E0 : (inject_Z x == inject_Z x / inject_Z n * inject_Z n)%Q) by (field; lra).
  destruct (Qle_bool_spec (inject_Z x / inject_Z n) 0) as [H|H].
  - assert (x <= 0) by (apply inject_Z_le_iff; rewrite E0; change (inject_Z 0) with 0%Q; nra).
    rewrite Z.max_r by lia. change (inject_Z 0) with 0%Q. field. lra.
  - assert (0 < x) by (apply inject_Z_lt_iff; rewrite E0; change (inject_Z 0) with 0%Q; nra).
    rewrite Z.max_l by lia. reflexivity.
Qed.

Lemma qmax_compl x y z : (x == y)%Q -> (qmax x z == qmax y z)%Q.
Proof. intros H. unfold qmax. qcases; lra. Qed.

Lemma corr_scc a b c d : 0 <= a -> 0 <= b -> 0 <= c -> 0 <= d -> 0 < a + b + c + d ->
  let n := inject_Z (a + b + c + d) in
  (corr_val a b c d == scc (inject_Z (a + b) / n) (inject_Z (a + c) / n) (inject_Z a / n))%Q.
Proof.
  intros Ha Hb Hc Hd Hn. cbn zeta. set (N := a + b + c + d) in *.
  pose proof (inject_pos N Hn) as Pn. assert (NZ : ~ (inject_Z N == 0)%Q) by lra.
  assert (E1 : (inject_Z a / inject_Z N - inject_Z (a + b) / inject_Z N * (inject_Z (a + c) / inject_Z N) ==
                inject_Z (a * d - b * c) / (inject_Z N * inject_Z N))%Q).
  { setoid_replace (inject_Z (a * d - b * c)) with (inject_Z a * inject_Z N - inject_Z (a + b) * inject_Z (a + c))%Q.
    - field. exact NZ.
    - rewrite <- !inject_Z_mult. unfold Qminus. rewrite <- inject_Z_opp, <- inject_Z_plus. apply inject_Z_eq. unfold N. ring. }
  destruct (corr_val_eq a b c d Ha Hb Hc Hd) as [Ev P]. rewrite Ev. unfold scc.
  assert (PNN : (0 < inject_Z N * inject_Z N)%Q) by (apply Qmult_lt_0_compat; assumption).
  destruct (Qlt_le_dec _ _) as [G|L].
  - assert (GN : 0 < a * d - b * c).
    { apply inject_Z_lt_iff. change (inject_Z 0) with 0%Q.
      setoid_replace (inject_Z (a * d - b * c)) with (inject_Z (a * d - b * c) / (inject_Z N * inject_Z N) * (inject_Z N * inject_Z N))%Q by (field; exact NZ).
      rewrite <- E1. apply Qmult_lt_0_compat; lra. }
    rewrite E1, qmin_div by exact Hn.
    assert (PD := P ltac:(lia)). assert (PDQ := inject_pos _ PD).
    setoid_replace (inject_Z (Z.min (a + b) (a + c)) / inject_Z N - inject_Z (a + b) / inject_Z N * (inject_Z (a + c) / inject_Z N))%Q
      with (inject_Z (corr_den a b c d) / (inject_Z N * inject_Z N))%Q.
    + field. split; lra.
    + setoid_replace (inject_Z (corr_den a b c d)) with (inject_Z (Z.min (a + b) (a + c)) * inject_Z N - inject_Z (a + b) * inject_Z (a + c))%Q.
      * field. exact NZ.
      * rewrite <- !inject_Z_mult. unfold Qminus. rewrite <- inject_Z_opp, <- inject_Z_plus. apply inject_Z_eq.
        unfold corr_den. destruct (Z.gtb_spec (a * d - b * c) 0); [|lia]. unfold N.
        destruct (Z.leb_spec b c); [rewrite Z.min_l by lia|rewrite Z.min_r by lia]; ring.
  - assert (LN : a * d - b * c <= 0).
    { apply inject_Z_le_iff. change (inject_Z 0) with 0%Q.
      setoid_replace (inject_Z (a * d - b * c)) with (inject_Z (a * d - b * c) / (inject_Z N * inject_Z N) * (inject_Z N * inject_Z N))%Q by (field; exact NZ).
      rewrite <- E1. set (u := (inject_Z a / inject_Z N - _)%Q). assert (u <= 0)%Q by (unfold u; lra). nra. }
    rewrite E1. destruct (Z.eq_dec (a * d - b * c) 0) as [E0|E0].
    + rewrite E0. change (inject_Z 0) with 0%Q. unfold Qdiv. ring.
    + assert (PD := P E0). assert (PDQ := inject_pos _ PD).
      assert (Em : (qmax (inject_Z (a + b) / inject_Z N + inject_Z (a + c) / inject_Z N - 1) 0 == inject_Z (Z.max (a - d) 0) / inject_Z N)%Q).
      { rewrite <- (qmax_div (a - d) N Hn). apply qmax_compl.
        setoid_replace (inject_Z (a - d)) with (inject_Z (a + b) + inject_Z (a + c) - inject_Z N)%Q.
        - field. exact NZ.
        - unfold Qminus. rewrite <- inject_Z_opp, <- !inject_Z_plus. apply inject_Z_eq. unfold N. ring. }
      rewrite Em.
      setoid_replace (inject_Z (a + b) / inject_Z N * (inject_Z (a + c) / inject_Z N) - inject_Z (Z.max (a - d) 0) / inject_Z N)%Q
        with (inject_Z (corr_den a b c d) / (inject_Z N * inject_Z N))%Q.
      * field. split; lra.
      * setoid_replace (inject_Z (corr_den a b c d)) with (inject_Z (a + b) * inject_Z (a + c) - inject_Z (Z.max (a - d) 0) * inject_Z N)%Q.
        -- field. exact NZ.
        -- rewrite <- !inject_Z_mult. unfold Qminus. rewrite <- inject_Z_opp, <- inject_Z_plus. apply inject_Z_eq.
           unfold corr_den. destruct (Z.gtb_spec (a * d - b * c) 0); [lia|]. unfold N.
           destruct (Z.leb_spec d a); [rewrite Z.max_l by lia|rewrite Z.max_r by lia]; ring.
Qed.

(** One-argument calls. *)
Lemma corr_auto xs s : forall d, co_in1d s = d ->
  let s1 := corr_monitors s (map (fun x => (x, None)) xs) in
  let s2 := corr_monitors s (two_arg (combine xs (d :: xs))) in
  co_a s1 = co_a s2 /\ co_b s1 = co_b s2 /\ co_c s1 = co_c s2 /\ co_d s1 = co_d s2 /\ co_len s1 = co_len s2.
Proof.
  assert (G : forall xs s t d, co_in1d s = d -> co_a s = co_a t -> co_b s = co_b t -> co_c s = co_c t -> co_d s = co_d t -> co_len s = co_len t ->
    let s1 := corr_monitors s (map (fun x => (x, None)) xs) in
    let s2 := corr_monitors t (two_arg (combine xs (d :: xs))) in
    co_a s1 = co_a s2 /\ co_b s1 = co_b s2 /\ co_c s1 = co_c s2 /\ co_d s1 = co_d s2 /\ co_len s1 = co_len s2).
  { clear xs s. unfold corr_monitors, two_arg. induction xs as [|x xs IH]; intros s t d Hd H1 H2 H3 H4 H5; cbn zeta.
    - cbn [map combine fold_left]. auto.
    - destruct xs as [|y ys]. 
      + cbn [map combine fold_left fst snd]. unfold corr_monitor. cbn [co_a co_b co_c co_d co_len]. rewrite Hd, H1, H2, H3, H4, H5. auto.
      + cbn [map combine fold_left fst snd].
        specialize (IH (corr_monitor s (x, None)) (corr_monitor t (x, Some d)) x). cbn zeta in IH.
        cbn [map combine fold_left fst snd] in IH. apply IH; unfold corr_monitor; cbn [co_a co_b co_c co_d co_len co_in1d]; congruence. }
  intros d Hd. apply G; auto.
Qed.

Theorem corr_all : forall h, Forall bitpair h ->
  let r := corr_forward (corr_monitors corr_init (two_arg h)) in
  (-(1) <= r /\ r <= 1)%Q /\
  ((r == 1)%Q <-> (pairs 1 0 h = 0 \/ pairs 0 1 h = 0) /\ 0 < pairs 1 1 h /\ 0 < pairs 0 0 h) /\
  ((r == -(1))%Q <-> (pairs 1 1 h = 0 \/ pairs 0 0 h = 0) /\ 0 < pairs 1 0 h /\ 0 < pairs 0 1 h) /\
  (h <> [] -> (r == scc (value Unipolar (map fst h)) (value Unipolar (map snd h))
                        (inject_Z (pairs 1 1 h) / inject_Z (zlen h)))%Q).
Proof.
  intros h Hb. cbn zeta. rewrite (corr_forward_val h Hb).
  pose proof (pairs_nonneg 1 1 h). pose proof (pairs_nonneg 1 0 h). pose proof (pairs_nonneg 0 1 h). pose proof (pairs_nonneg 0 0 h).
  split; [apply corr_bounds; assumption|]. split; [apply corr_plus_one; assumption|].
  split; [apply corr_minus_one; assumption|]. intros Hne.
  assert (L : 0 < zlen h) by (destruct h; [contradiction|unfold zlen; cbn [length]; lia]).
  pose proof (corr_scc (pairs 1 1 h) (pairs 1 0 h) (pairs 0 1 h) (pairs 0 0 h)) as E. cbn zeta in E.
  rewrite (pairs_total h Hb) in E. rewrite E by assumption. unfold value.
  rewrite (pairs_fst h Hb), (pairs_snd h Hb).
  replace (zlen (map fst h)) with (zlen h) by (unfold zlen; rewrite map_length; reflexivity).
  replace (zlen (map snd h)) with (zlen h) by (unfold zlen; rewrite map_length; reflexivity). reflexivity.
Qed.

Theorem corr_symmetric : forall h, Forall bitpair h ->
  (corr_forward (corr_monitors corr_init (two_arg h)) ==
   corr_forward (corr_monitors corr_init (two_arg (map (fun p => (snd p, fst p)) h))))%Q.
Proof.
  intros h Hb.
  assert (Hb' : Forall bitpair (map (fun p => (snd p, fst p)) h)).
  { apply Forall_forall. intros p Hp. apply in_map_iff in Hp. destruct Hp as (q & <- & Hq). rewrite Forall_forall in Hb.
    destruct (Hb q Hq). split; assumption. }
  rewrite (corr_forward_val h Hb), (corr_forward_val _ Hb').
  assert (S : forall u v, pairs u v (map (fun p => (snd p, fst p)) h) = pairs v u h).
  { intros u v. unfold pairs. rewrite countb_map. apply countb_ext. intros [x y] _. cbn [fst snd]. apply andb_comm. }
  rewrite !S. apply corr_sym; apply pairs_nonneg.
Qed.

Theorem corr_delayed : forall xs,
  (corr_forward (corr_monitors corr_init (map (fun x => (x, None)) xs)) ==
   corr_forward (corr_monitors corr_init (two_arg (combine xs (0%Z :: xs)))))%Q.
Proof.
  intros xs. destruct (corr_auto xs corr_init 0 eq_refl) as (E1 & E2 & E3 & E4 & E5).
  unfold corr_forward. rewrite E1, E2, E3, E4, E5. reflexivity.
Qed.

(** ** C06 *)
Definition gen_pair (B1 B2 : Z) (rng : list Z) (start : Z) (n : nat) : list (Z * Z) :=
  combine (bsgen_stream B1 rng start n) (bsgen_stream B2 rng start n).

Lemma gen_pair_map B1 B2 rng start n : gen_pair B1 B2 rng start n =
  map (fun k => (bsgen_bit B1 rng (start + Z.of_nat k), bsgen_bit B2 rng (start + Z.of_nat k))) (seq 0 n).
Proof. unfold gen_pair, bsgen_stream. generalize (seq 0 n). induction l; [reflexivity|]. cbn [map combine]. congruence. Qed.

Theorem same_rng : forall rng B1 B2 start n, B1 <= B2 ->
  Forall2 (fun x y => x <= y) (bsgen_stream B1 rng start n) (bsgen_stream B2 rng start n) /\
  (forall B k, bsgen_stream B rng (start + k * zlen rng) n = bsgen_stream B rng start n) /\
  (let h := combine (bsgen_stream B1 rng start n) (bsgen_stream B2 rng start n) in
   0 < pairs 1 1 h -> 0 < pairs 0 0 h ->
   (corr_forward (corr_monitors corr_init (two_arg h)) == 1)%Q /\
   (corr_forward (corr_monitors corr_init (two_arg (map (fun p => (snd p, fst p)) h))) == 1)%Q).
Proof.
  intros rng B1 B2 start n HB. split.
  { unfold bsgen_stream. induction (seq 0 n); constructor; [apply bsgen_nested, HB|assumption]. }
  split.
  { intros B k. unfold bsgen_stream. apply map_ext. intros j.
    replace (start + k * zlen rng + Z.of_nat j) with (start + Z.of_nat j + k * zlen rng) by lia. apply bsgen_periodic. }
  intros h Ha Hd.
  assert (Hb : Forall bitpair h).
  { unfold h. fold (gen_pair B1 B2 rng start n). rewrite gen_pair_map. apply Forall_forall. intros p Hp. apply in_map_iff in Hp.
    destruct Hp as (k & <- & _). split; apply bsgen_bit_bit. }
  assert (Hc : pairs 1 0 h = 0).
  { apply countb_false. intros p Hp. unfold h in Hp. fold (gen_pair B1 B2 rng start n) in Hp. rewrite gen_pair_map in Hp.
    apply in_map_iff in Hp. destruct Hp as (k & <- & _). cbn [fst snd].
    pose proof (bsgen_nested B1 B2 rng (start + Z.of_nat k) HB). pose proof (bsgen_bit_bit B1 rng (start + Z.of_nat k)) as [E|E]; rewrite E; [reflexivity|].
    destruct (Z.eqb_spec (bsgen_bit B2 rng (start + Z.of_nat k)) 0); [lia|reflexivity]. }
  assert (E : (corr_forward (corr_monitors corr_init (two_arg h)) == 1)%Q).
  { destruct (corr_all h Hb) as (_ & P & _). apply P. auto. }
  split; [exact E|]. rewrite <- (corr_symmetric h Hb). exact E.
Qed.

(** ** ProgError *)
Lemma pe_counters xs : bits xs -> pe_monitors pe_init xs = {| pe_cycle := zlen xs; pe_one := ones xs |}.
Proof.
  unfold pe_monitors. induction xs as [|x xs IH] using rev_ind; intros Hb; [reflexivity|].
  apply bits_snoc in Hb. destruct Hb as [Hb Hx]. rewrite fold_left_app. cbn [fold_left]. rewrite (IH Hb).
  unfold pe_monitor. cbn [pe_cycle pe_one]. rewrite ones_snoc, zlen_snoc by exact Hx. reflexivity.
Qed.

Lemma value_bip xs : bits xs -> xs <> [] ->
  (inject_Z (ones xs) / inject_Z (zlen xs) * 2 - 1 == value Bipolar xs)%Q.
Proof.
  intros Hb Hne. unfold value. assert (L : 0 < zlen xs) by (destruct xs; [contradiction|unfold zlen; cbn [length]; lia]).
  pose proof (inject_pos _ L). setoid_replace (inject_Z (walk xs)) with (2 * inject_Z (ones xs) - inject_Z (zlen xs))%Q.
  - field. lra.
  - change 2%Q with (inject_Z 2). unfold Qminus. rewrite <- inject_Z_mult, <- inject_Z_opp, <- inject_Z_plus. apply inject_Z_eq.
    unfold walk. pose proof (ones_zeros xs Hb). lia.
Qed.

Lemma pe_forward_spec m scale source xs : bits xs -> xs <> [] ->
  exists pp pe, pe_forward m scale source (pe_monitors pe_init xs) = Some (pp, pe) /\
    (pp == value m xs)%Q /\ (pe == value m xs - qclamp (-1) 1 (source / scale))%Q.
Proof.
  intros Hb Hne. rewrite (pe_counters xs Hb). unfold pe_forward. cbn [pe_cycle pe_one].
  assert (L : 0 < zlen xs) by (destruct xs; [contradiction|unfold zlen; cbn [length]; lia]).
  destruct (Z.eqb_spec (zlen xs) 0) as [E|_]; [lia|]. eexists; eexists. split; [reflexivity|].
  unfold pe_source. destruct m.
  - split; reflexivity.
  - rewrite (value_bip xs Hb Hne). split; reflexivity.
Qed.

Lemma value_range m xs : bits xs -> xs <> [] ->
  match m with Unipolar => (0 <= value m xs /\ value m xs <= 1)%Q | Bipolar => (-(1) <= value m xs /\ value m xs <= 1)%Q end.
Proof.
  intros Hb Hne. assert (L : 0 < zlen xs) by (destruct xs; [contradiction|unfold zlen; cbn [length]; lia]).
  pose proof (inject_pos _ L) as P. pose proof (ones_nonneg xs). pose proof (zeros_nonneg xs). pose proof (ones_zeros xs Hb).
  destruct m; unfold value.
  - split; [apply Qle_shift_div_l; [exact P|]|apply Qle_shift_div_r; [exact P|]].
    + rewrite Qmult_0_l. change 0%Q with (inject_Z 0). apply inject_Z_le_iff. lia.
    + rewrite Qmult_1_l. apply inject_Z_le_iff. lia.
  - apply zdiv_bounds; [exact L|]. unfold walk. lia.
Qed.

(** One more bit moves the value by at most one grid step of the longer stream. *)
Lemma value_step m xs x : bits xs -> xs <> [] -> bit x ->
  (Qabs (value m (xs ++ [x]) - value m xs) <= (match m with Unipolar => 1 | Bipolar => 2 end) / inject_Z (zlen xs + 1))%Q.
Proof.
  intros Hb Hne Hx. assert (L : 0 < zlen xs) by (destruct xs; [contradiction|unfold zlen; cbn [length]; lia]).
  pose proof (inject_pos _ L) as P. assert (L1 : 0 < zlen xs + 1) by lia. pose proof (inject_pos _ L1) as P1.
  pose proof (ones_nonneg xs). pose proof (zeros_nonneg xs). pose proof (ones_zeros xs Hb) as OZ.
  assert (G : forall a n b k, 0 < n -> - k * n <= b * n - a <= k * n ->
    (Qabs (inject_Z (a + b) / inject_Z (n + 1) - inject_Z a / inject_Z n) <= inject_Z k / inject_Z (n + 1))%Q).
  { clear. intros a n b k Hn H. pose proof (inject_pos _ Hn) as P. assert (L1 : 0 < n + 1) by lia. pose proof (inject_pos _ L1) as P1.
    assert (E : (inject_Z (a + b) / inject_Z (n + 1) - inject_Z a / inject_Z n == (inject_Z (b * n - a) / inject_Z n) / inject_Z (n + 1))%Q).
    { setoid_replace (inject_Z (b * n - a)) with (inject_Z (a + b) * inject_Z n - inject_Z a * inject_Z (n + 1))%Q.
      - field. split; lra.
      - unfold Qminus. rewrite <- !inject_Z_mult, <- inject_Z_opp, <- inject_Z_plus. apply inject_Z_eq. ring. }
    rewrite E.
    assert (B : (- inject_Z k <= inject_Z (b * n - a) / inject_Z n /\ inject_Z (b * n - a) / inject_Z n <= inject_Z k)%Q).
    { split; [apply Qle_shift_div_l|apply Qle_shift_div_r]; try exact P;
        rewrite <- ?inject_Z_opp, <- inject_Z_mult; apply inject_Z_le_iff; lia. }
    apply Qabs_Qle_condition. split.
    - setoid_replace (- (inject_Z k / inject_Z (n + 1)))%Q with ((- inject_Z k) / inject_Z (n + 1))%Q by (field; lra).
      apply Qmult_le_compat_r; [apply B|]. apply Qlt_le_weak, Qinv_lt_0_compat, P1.
    - apply Qmult_le_compat_r; [apply B|]. apply Qlt_le_weak, Qinv_lt_0_compat, P1. }
  destruct m; unfold value; rewrite zlen_snoc.
  - rewrite ones_snoc by exact Hx. change 1%Q with (inject_Z 1). apply G; [exact L|]. destruct Hx as [->| ->]; lia.
  - rewrite walk_snoc by exact Hx. change 2%Q with (inject_Z 2). apply G; [exact L|]. unfold walk. destruct Hx as [->| ->]; lia.
Qed.

Theorem progerror_all : forall m scale source xs, bits xs -> xs <> [] ->
  exists pp pe, pe_forward m scale source (pe_monitors pe_init xs) = Some (pp, pe) /\
    (pp == value m xs)%Q /\ (pe == value m xs - qclamp (-1) 1 (source / scale))%Q /\
    src_ok m pp /\
    (forall x, bit x -> exists pp' pe', pe_forward m scale source (pe_monitors pe_init (xs ++ [x])) = Some (pp', pe') /\
      (Qabs (pp' - pp) <= (match m with Unipolar => 1 | Bipolar => 2 end) / inject_Z (zlen xs + 1))%Q /\
      (pe' - pe == pp' - pp)%Q).
Proof.
  intros m scale source xs Hb Hne. destruct (pe_forward_spec m scale source xs Hb Hne) as (pp & pe & E & E1 & E2).
  exists pp, pe. split; [exact E|]. split; [exact E1|]. split; [exact E2|]. split.
  - pose proof (value_range m xs Hb Hne). destruct m; cbn [src_ok]; rewrite E1; tauto.
  - intros x Hx. destruct (pe_forward_spec m scale source (xs ++ [x])) as (pp' & pe' & E' & E1' & E2').
    + apply bits_snoc. tauto.
    + destruct xs; discriminate.
    + exists pp', pe'. split; [exact E'|]. split; [|rewrite E2, E2', E1, E1'; ring].
      rewrite E1, E1'. apply value_step; assumption.
Qed.

(** ** C05 *)
Theorem end_to_end : forall m w rng s start k, perm_seq w rng -> src_ok m s -> (1 <= k)%nat ->
  let xs := bsgen_stream (bingen m w s) rng start (k * 2 ^ w) in
  exists pp pe, pe_forward m 1 s (pe_monitors pe_init xs) = Some (pp, pe) /\
    (pp == grid_value m w (bingen m w s))%Q /\ (pe == grid_value m w (bingen m w s) - s)%Q /\
    (Qabs pe <= match m with Unipolar => 1 / inject_Z (p2 (S w)) | Bipolar => 1 / inject_Z (p2 w) end)%Q.
Proof.
  intros m w rng s start k Hp Hs Hk xs.
  assert (Hb : bits xs) by apply bsgen_stream_bits.
  assert (Hz : zlen xs = Z.of_nat k * p2 w) by (unfold xs; rewrite bsgen_stream_len, Nat2Z.inj_mul, p2_nat; reflexivity).
  pose proof (p2_pos w) as Pw.
  assert (Hne : xs <> []) by (intros E; rewrite E in Hz; cbn in Hz; nia).
  pose proof (bingen_range m w s Hs) as HB. set (B := bingen m w s) in *.
  assert (Ho : ones xs = Z.of_nat k * B).
  { unfold xs. rewrite (bsgen_exact_periods w) by exact Hp. unfold zclamp. f_equal. lia. }
  destruct (pe_forward_spec m 1 s xs Hb Hne) as (pp & pe & E & E1 & E2).
  pose proof (inject_pos _ Pw) as PQ. assert (Kp : (0 < inject_Z (Z.of_nat k))%Q) by (apply inject_pos; lia).
  assert (V : (value m xs == grid_value m w B)%Q).
  { destruct m; [|rewrite <- (value_bip xs Hb Hne)]; unfold value, grid_value; rewrite Ho, Hz, !inject_Z_mult; field; split; lra. }
  assert (C : (qclamp (-1) 1 (s / 1) == s)%Q).
  { assert (E00 : (s / 1 == s)%Q) by field.
    assert (E0 : (qclamp (-1) 1 (s / 1) == qclamp (-1) 1 s)%Q) by (unfold qclamp, qmin, qmax; qcases; lra).
    rewrite E0. apply qclamp_id; destruct m; cbn [src_ok] in Hs; lra. }
  exists pp, pe. split; [exact E|]. split; [rewrite E1; exact V|].
  assert (Epe : (pe == grid_value m w B - s)%Q) by (rewrite E2, V, C; reflexivity).
  split; [exact Epe|]. rewrite Epe. eapply Qle_trans; [apply bingen_near|]. unfold grid_step.
  destruct m.
  - rewrite p2_S, inject_Z_mult. change (inject_Z 2) with 2%Q.
    setoid_replace (1 / inject_Z (p2 w) / 2)%Q with (1 / (2 * inject_Z (p2 w)))%Q by (field; lra). apply Qle_refl.
  - setoid_replace (2 / inject_Z (p2 w) / 2)%Q with (1 / inject_Z (p2 w))%Q by (field; lra). apply Qle_refl.
Qed.

(** ** Stability *)
Lemma last_index_snoc {A} (f : A -> bool) l x : forall k, 0 < k ->
  last_index f k (l ++ [x]) = if f x then k + zlen l else last_index f k l.
Proof.
  induction l as [|y l IH]; intros k Hk.
  - cbn [app last_index]. change (zlen (@nil A)) with 0. destruct (f x); cbn [Z.eqb]; lia.
  - cbn [app last_index]. rewrite IH by lia. unfold zlen. cbn [length]. destruct (f x); [|reflexivity].
    destruct (Z.eqb_spec (k + 1 + Z.of_nat (length l)) 0); lia.
Qed.

Definition off_target (m : mode) (scale source threshold : Q) (ys : list Z) : bool :=
  qgt (Qabs (value m ys - qclamp (-1) 1 (source / scale))) threshold.

Lemma qgt_comp a a' b : (a == a')%Q -> qgt a b = qgt a' b.
Proof. intros E. unfold qgt. destruct (Qle_bool_spec a b), (Qle_bool_spec a' b); try reflexivity; lra. Qed.

Lemma stab_state m scale source thr xs : bits xs ->
  let s := stab_monitors m scale source thr stab_init xs in
  sb_pe s = pe_monitors pe_init xs /\
  sb_cts s = last_index (off_target m scale source thr) 1 (map (fun k => firstn (S k) xs) (seq 0 (length xs))).
Proof.
  cbn zeta. unfold stab_monitors. induction xs as [|x xs IH] using rev_ind; intros Hb; [split; reflexivity|].
  pose proof Hb as Hb0. apply bits_snoc in Hb. destruct Hb as [Hb Hx]. specialize (IH Hb).
  rewrite fold_left_app. cbn [fold_left]. set (s := fold_left _ xs stab_init) in *. clearbody s. destruct IH as [I1 I2].
  unfold stab_monitor. rewrite I1.
  assert (Ep : pe_monitor (pe_monitors pe_init xs) x = pe_monitors pe_init (xs ++ [x])) by (unfold pe_monitors; rewrite fold_left_app; reflexivity).
  rewrite Ep. destruct (pe_forward_spec m scale source (xs ++ [x]) Hb0) as (pp & pe & E & E1 & E2); [destruct xs; discriminate|].
  rewrite E. cbn [sb_pe sb_cts]. split; [reflexivity|].
  rewrite app_length. cbn [length]. rewrite seq_app, map_app. cbn [map seq Nat.add].
  rewrite last_index_snoc by lia.
  assert (Em : map (fun k => firstn (S k) (xs ++ [x])) (seq 0 (length xs)) = map (fun k => firstn (S k) xs) (seq 0 (length xs))).
  { apply map_ext_in. intros k Hk. apply in_seq in Hk. rewrite firstn_app. replace (S k - length xs)%nat with 0%nat by lia.
    cbn [firstn]. apply app_nil_r. }
  rewrite Em, <- I2. rewrite (firstn_all2 (xs ++ [x])) by (rewrite app_length; cbn; lia).
  assert (Eq : qgt (Qabs pe) thr = off_target m scale source thr (xs ++ [x])).
  { apply qgt_comp. rewrite E2. reflexivity. }
  rewrite Eq. rewrite (pe_counters _ Hb0). cbn [pe_cycle]. rewrite zlen_snoc.
  assert (Lm : zlen (map (fun k => firstn (S k) xs) (seq 0 (length xs))) = zlen xs) by (unfold zlen; rewrite map_length, seq_length; reflexivity).
  rewrite Lm. destruct (off_target _ _ _ _ _); cbn [b2z]; lia.
Qed.

Lemma last_index_range {A} (f : A -> bool) l : forall k, 0 < k -> last_index f k l = 0 \/ k <= last_index f k l < k + zlen l.
Proof.
  induction l as [|x l IH]; intros k Hk; [left; reflexivity|]. cbn [last_index]. unfold zlen in *. cbn [length].
  destruct (IH (k + 1) ltac:(lia)) as [E|E]; [rewrite E|]; cbn [Z.eqb].
  - destruct (f x); [right; lia|left; reflexivity].
  - destruct (Z.eqb_spec (last_index f (k + 1) l) 0); lia.
Qed.

Theorem stability_all : forall m scale source thr xs, bits xs -> xs <> [] ->
  let s := stab_monitors m scale source thr stab_init xs in
  let cts := last_index (fun ys => qgt (Qabs (value m ys - qclamp (-1) 1 (source / scale))) thr) 1
                        (map (fun k => firstn (S k) xs) (seq 0 (length xs))) in
  sb_cts s = cts /\ 0 <= cts <= zlen xs /\
  (stab_forward s == 1 - inject_Z (Z.max 1 cts) / inject_Z (zlen xs))%Q /\
  (0 <= stab_forward s /\ stab_forward s <= 1 - 1 / inject_Z (zlen xs))%Q.
Proof.
  intros m scale source thr xs Hb Hne. cbn zeta.
  change (fun ys => qgt (Qabs (value m ys - qclamp (-1) 1 (source / scale))) thr) with (off_target m scale source thr).
  destruct (stab_state m scale source thr xs Hb) as [E1 E2]. cbn zeta in *.
  set (s := stab_monitors m scale source thr stab_init xs) in *.
  set (cts := last_index _ 1 _) in *.
  assert (Lm : zlen (map (fun k => firstn (S k) xs) (seq 0 (length xs))) = zlen xs) by (unfold zlen; rewrite map_length, seq_length; reflexivity).
  assert (R : 0 <= cts <= zlen xs).
  { destruct (last_index_range (off_target m scale source thr) (map (fun k => firstn (S k) xs) (seq 0 (length xs))) 1 ltac:(lia)) as [E|E];
      fold cts in E; rewrite ?Lm in E; [pose proof (zlen_nonneg xs); lia|lia]. }
  assert (L : 0 < zlen xs) by (destruct xs; [contradiction|unfold zlen; cbn [length]; lia]).
  split; [exact E2|]. split; [exact R|].
  assert (F : (stab_forward s == 1 - inject_Z (Z.max 1 cts) / inject_Z (zlen xs))%Q).
  { unfold stab_forward. rewrite E1, E2, (pe_counters xs Hb). cbn [pe_cycle]. unfold zclamp.
    replace (Z.min (Z.max cts 1) (zlen xs)) with (Z.max 1 cts) by lia. reflexivity. }
  split; [exact F|]. rewrite F. pose proof (inject_pos _ L) as P.
  assert (B1 : (inject_Z (Z.max 1 cts) / inject_Z (zlen xs) <= 1)%Q).
  { apply Qle_shift_div_r; [exact P|]. rewrite Qmult_1_l. apply inject_Z_le_iff. lia. }
  assert (B2 : (1 / inject_Z (zlen xs) <= inject_Z (Z.max 1 cts) / inject_Z (zlen xs))%Q).
  { apply Qmult_le_compat_r; [|apply Qlt_le_weak, Qinv_lt_0_compat, P]. change 1%Q with (inject_Z 1). apply inject_Z_le_iff. lia. }
  split; lra.
Qed.
