(** Proofs for C76. *)
From Coq Require Import String Lqa.
Require Import Verif.BaseLemmas Verif.SobolProof Verif.GenModel Verif.GenProof Verif.KernelModel Verif.KernelProof
  Verif.MetricModel Verif.MetricProof Verif.LinearModel Verif.LinearProof Verif.ConvModel Verif.ConvProof
  Verif.NameSpec Verif.NameProof Verif.NewSpec Verif.ConvErrSpec Verif.ProgSpec.
Require Verif.NewProof.
Open Scope Z_scope.

(** ** Counts near a probability *)
Definition near (e u : Q) (xs : list Z) : Prop := bits xs /\ (Qabs (inject_Z (ones xs) - inject_Z (zlen xs) * u) <= e)%Q.
Definition of_prob (m : mode) (u : Q) : Q := match m with Unipolar => u | Bipolar => 2 * u - 1 end.

Lemma walk_ones xs : bits xs -> walk xs = 2 * ones xs - zlen xs.
Proof. intros H. pose proof (ones_zeros xs H). unfold walk. lia. Qed.

Lemma qabs_le x e : (Qabs x <= e)%Q <-> (- e <= x <= e)%Q.
Proof. apply Qabs_Qle_condition. Qed.
Lemma inj_pos z : 0 < z -> (0 < inject_Z z)%Q.
Proof. intros H. change 0%Q with (inject_Z 0). rewrite <- Zlt_Qlt. exact H. Qed.

Lemma near_value m e u xs : near e u xs -> xs <> [] ->
  (Qabs (value m xs - of_prob m u) <= span m * e / inject_Z (zlen xs))%Q.
Proof.
  intros [Hb N] Hne. assert (P : 0 < zlen xs) by (unfold zlen; destruct xs; [contradiction|cbn [length]; lia]).
  apply inj_pos in P. apply qabs_le in N. apply qabs_le.
  set (T := inject_Z (zlen xs)) in *. set (o := inject_Z (ones xs)) in *.
  assert (V : (T * (value m xs - of_prob m u) == span m * (o - T * u))%Q).
  { unfold value, span, of_prob. fold T. destruct m; fold o.
    - field. lra.
    - rewrite (walk_ones xs Hb). unfold Z.sub. rewrite inject_Z_plus, inject_Z_opp, inject_Z_mult. fold T o. change (inject_Z 2) with 2%Q.
      field. lra. }
  assert (S : (0 < span m)%Q) by (destruct m; cbn; lra).
  set (D := (value m xs - of_prob m u)%Q) in *.
  assert (E : (span m * e / T * T == span m * e)%Q) by (field; lra).
  split; apply (Qmult_le_r _ _ T P).
  - assert (E2 : (- (span m * e / T) * T == - (span m * e))%Q) by (field; lra). rewrite E2. rewrite (Qmult_comm D T), V. nra.
  - rewrite E. rewrite (Qmult_comm D T), V. nra.
Qed.

(** A count in units of 2^-w. *)
Lemma near_grid w e B xs : bits xs -> Z.abs (ones xs * p2 w - zlen xs * B) <= e * p2 w ->
  near (inject_Z e) (inject_Z B / inject_Z (p2 w)) xs.
Proof.
  intros Hb H. split; [exact Hb|]. pose proof (p2_pos w) as P. pose proof (inj_pos _ P) as PQ. apply qabs_le.
  set (M := inject_Z (p2 w)) in *.
  assert (L : (- (inject_Z e * M) <= inject_Z (ones xs) * M - inject_Z (zlen xs) * inject_Z B <= inject_Z e * M)%Q).
  { unfold M. rewrite <- !inject_Z_mult, <- inject_Z_opp. unfold Qminus. rewrite <- inject_Z_opp, <- inject_Z_plus. rewrite <- !Zle_Qle. lia. }
  assert (E : ((inject_Z (ones xs) - inject_Z (zlen xs) * (inject_Z B / M)) * M == inject_Z (ones xs) * M - inject_Z (zlen xs) * inject_Z B)%Q) by (field; lra).
  split; apply (Qmult_le_r _ _ M PQ); rewrite E; lra.
Qed.

(** What a BSGen emits from a Sobol sequence. *)
Lemma bsgen_near ext w d B n : (w <= 30)%nat -> dirvec_ok 30 (ext_dirvec ext d) -> 0 <= B <= p2 w ->
  near (inject_Z (Z.of_nat w)) (inject_Z B / inject_Z (p2 w)) (bsgen_stream B (rng_seq ext KSobol w d) 0 n).
Proof.
  intros Hw HV HB. apply near_grid; [apply bsgen_stream_bits|]. rewrite bsgen_stream_len.
  pose proof (rng_sobol_perm ext w d Hw HV) as HP.
  assert (L : (0 < length (rng_seq ext KSobol w d))%nat).
  { rewrite (Permutation_length HP), len_zrange. assert (2 ^ w <> 0)%nat by (apply Nat.pow_nonzero; lia). lia. }
  pose proof (below_sobol ext w d B n Hw HV HB) as D.
  replace (ones (bsgen_stream B (rng_seq ext KSobol w d) 0 n)) with (below (rng_seq ext KSobol w d) B n); [exact D|].
  rewrite bsgen_stream0 by exact L. unfold below. set (f := fun k => cyc (rng_seq ext KSobol w d) k <? B). clear.
  unfold ones. induction (seq 0 n) as [|k l IH]; [reflexivity|]. cbn [map countb]. rewrite IH.
  change (cyc (rng_seq ext KSobol w d) k <? B) with (f k). destruct (f k); reflexivity.
Qed.

(** What the static multiplier makes of a stream that is near a probability. *)
Definition prod_prob (m : mode) (u v : Q) : Q := match m with Unipolar => u * v | Bipolar => u * v + (1 - u) * (1 - v) end.
Lemma mul_near m ext w d B e u xs : (w <= 30)%nat -> dirvec_ok 30 (ext_dirvec ext d) -> 0 <= B <= p2 w ->
  near e u xs ->
  near (inject_Z (match m with Unipolar => 1 | Bipolar => 2 end * Z.of_nat w) + e) (prod_prob m u (inject_Z B / inject_Z (p2 w)))
    (outs (fsumul_static_step m B (rng_seq ext KSobol w d)) fsumul_static_init xs).
Proof.
  intros Hw HV HB [Hb N]. set (rng := rng_seq ext KSobol w d).
  pose proof (rng_sobol_perm ext w d Hw HV) as HP.
  assert (L : (0 < length rng)%nat).
  { unfold rng. rewrite (Permutation_length HP), len_zrange. assert (2 ^ w <> 0)%nat by (apply Nat.pow_nonzero; lia). lia. }
  destruct (mul_static_count m B rng xs L Hb) as [Ho _]. pose proof (mul_static_sobol m ext w d B xs Hw HV HB Hb) as D. cbv zeta in D. fold rng in D.
  set (o := outs _ _ xs) in *. split; [exact Ho|].
  assert (Lo : zlen o = zlen xs) by (unfold o, zlen; rewrite outs_length; reflexivity). rewrite Lo.
  pose proof (p2_pos w) as P. pose proof (inj_pos _ P) as PQ. pose proof (ones_zeros xs Hb) as OZ.
  apply qabs_le in N. apply qabs_le. set (M := inject_Z (p2 w)) in *. set (T := inject_Z (zlen xs)) in *.
  set (v := (inject_Z B / M)%Q).
  assert (V : (v * M == inject_Z B)%Q) by (unfold v; field; lra).
  assert (V0 : (0 <= v)%Q) by (apply (Qmult_le_r _ _ M PQ); rewrite V, Qmult_0_l; change 0%Q with (inject_Z 0); rewrite <- Zle_Qle; lia).
  assert (V1 : (v <= 1)%Q) by (apply (Qmult_le_r _ _ M PQ); rewrite V, Qmult_1_l; unfold M; rewrite <- Zle_Qle; lia).
  set (n1 := inject_Z (ones xs)) in *. set (p := inject_Z (ones o)).
  assert (K : (- (inject_Z (match m with Unipolar => 1 | Bipolar => 2 end * Z.of_nat w)) <= p - match m with Unipolar => n1 * v | Bipolar => n1 * v + (T - n1) * (1 - v) end
               <= inject_Z (match m with Unipolar => 1 | Bipolar => 2 end * Z.of_nat w))%Q).
  { set (k := match m with Unipolar => 1 | Bipolar => 2 end * Z.of_nat w).
    assert (Q1 : (- (inject_Z k * M) <= p * M - match m with Unipolar => n1 * inject_Z B | Bipolar => n1 * inject_Z B + (T - n1) * (M - inject_Z B) end <= inject_Z k * M)%Q).
    { unfold p, n1, T, M, k, Qminus. destruct m.
      - rewrite <- !inject_Z_mult, <- !inject_Z_opp, <- inject_Z_plus. rewrite <- !Zle_Qle. lia.
      - replace (zeros xs) with (zlen xs - ones xs) in D by lia.
        rewrite <- !inject_Z_opp, <- !inject_Z_plus, <- !inject_Z_mult, <- !inject_Z_opp, <- !inject_Z_plus, <- ?inject_Z_opp, <- ?inject_Z_plus.
        rewrite <- !Zle_Qle. lia. }
    destruct Q1 as [A1 A2]. split; apply (Qmult_le_r _ _ M PQ).
    - eapply Qle_trans; [|eapply Qle_trans; [exact A1|]]; [apply Qle_lteq; right; ring|].
      apply Qle_lteq; right. destruct m; rewrite <- V; ring.
    - eapply Qle_trans; [|eapply Qle_trans; [exact A2|]]; [|apply Qle_lteq; right; ring].
      apply Qle_lteq; right. destruct m; rewrite <- V; ring. }
  set (k := inject_Z _) in *. clearbody k v T n1 p M.
  unfold prod_prob. destruct m.
  - assert (E : (p - T * (u * v) == (p - n1 * v) + v * (n1 - T * u))%Q) by ring. rewrite E.
    assert (- e <= v * (n1 - T * u) <= e)%Q by (split; nra). lra.
  - assert (E : (p - T * (u * v + (1 - u) * (1 - v)) == (p - (n1 * v + (T - n1) * (1 - v))) + (2 * v - 1) * (n1 - T * u))%Q) by ring. rewrite E.
    assert (- e <= (2 * v - 1) * (n1 - T * u) <= e)%Q by (split; nra). lra.
Qed.
Lemma prod_prob_value m u v : (of_prob m (prod_prob m u v) == of_prob m u * of_prob m v)%Q.
Proof. destruct m; unfold of_prob, prod_prob; ring. Qed.
Lemma of_prob_grid m w B : of_prob m (inject_Z B / inject_Z (p2 w)) = grid_value m w B.
Proof. destruct m; reflexivity. Qed.

(** ** An adder with as many inputs as its scale *)
Lemma sum_err {A} (l : list A) (f g : A -> Q) d : (forall a, In a l -> (Qabs (f a - g a) <= d)%Q) ->
  (Qabs (qsum (map f l) - qsum (map g l)) <= inject_Z (zlen l) * d)%Q.
Proof.
  induction l as [|a l IH]; intros H.
  - change (inject_Z (zlen (@nil A))) with 0%Q. change (qsum (map f [])) with 0%Q. change (qsum (map g [])) with 0%Q. apply qabs_le. lra.
  - assert (E : (inject_Z (zlen (a :: l)) == 1 + inject_Z (zlen l))%Q).
    { unfold zlen. cbn [length]. rewrite Nat2Z.inj_succ. unfold Z.succ. rewrite inject_Z_plus. change (inject_Z 1) with 1%Q. ring. }
    rewrite E. cbn [map qsum]. specialize (IH (fun b Hb => H b (or_intror Hb))). specialize (H a (or_introl eq_refl)).
    apply qabs_le in H. apply qabs_le in IH. apply qabs_le.
    set (F := qsum (map f l)) in *. set (G := qsum (map g l)) in *. set (n := inject_Z (zlen l)) in *. split; lra.
Qed.
Lemma qsum_scale {A} (l : list A) (f : A -> Q) k : (qsum (map (fun a => k * f a) l) == k * qsum (map f l))%Q.
Proof. induction l as [|a l IH]; cbn [map qsum]; [ring|]. rewrite IH. ring. Qed.
Lemma qsum_inject {A} (l : list A) (f : A -> Z) : (qsum (map (fun a => inject_Z (f a)) l) == inject_Z (zsum (map f l)))%Q.
Proof. induction l as [|a l IH]; cbn [map qsum zsum fold_right]; [reflexivity|]. rewrite IH, <- inject_Z_plus. reflexivity. Qed.
Lemma qsum_ext_in {A} (l : list A) (f g : A -> Q) : (forall a, In a l -> (f a == g a)%Q) -> (qsum (map f l) == qsum (map g l))%Q.
Proof.
  induction l as [|a l IH]; intros H; cbn [map qsum]; [reflexivity|]. rewrite (H a (or_introl eq_refl)), IH; [reflexivity|].
  intros b Hb. apply H. right. exact Hb.
Qed.
Lemma qsum_of_prob {A} m (l : list A) (P : A -> Q) : l <> [] ->
  (of_prob m (qsum (map P l) / inject_Z (zlen l)) == qsum (map (fun a => of_prob m (P a)) l) / inject_Z (zlen l))%Q.
Proof.
  intros Hne. assert (L : 0 < zlen l) by (unfold zlen; destruct l; [contradiction|cbn [length]; lia]). apply inj_pos in L.
  destruct m; unfold of_prob; [reflexivity|].
  assert (G : (qsum (map (fun a => 2 * P a - 1) l) == 2 * qsum (map P l) - inject_Z (zlen l))%Q).
  { clear. induction l as [|a l IH]; [reflexivity|]. unfold zlen in *. cbn [map qsum length]. rewrite IH, Nat2Z.inj_succ. unfold Z.succ.
    rewrite inject_Z_plus. change (inject_Z 1) with 1%Q. ring. }
  rewrite G. field. lra.
Qed.

Theorem adder_near {A} m e q (l : list A) (S : A -> Z) (P R : A -> Q) os : l <> [] -> bits os -> os <> [] ->
  ones os = zsum (map S l) / zlen l ->
  (forall a, In a l -> (Qabs (inject_Z (S a) - inject_Z (zlen os) * P a) <= e)%Q) ->
  (forall a, In a l -> (Qabs (of_prob m (P a) - R a) <= q)%Q) ->
  (Qabs (value m os - qsum (map R l) / inject_Z (zlen l)) <= q + span m * (e + 1) / inject_Z (zlen os))%Q.
Proof.
  intros Hl Hb Hne Ho HS HR.
  assert (L : 0 < zlen l) by (unfold zlen; destruct l; [contradiction|cbn [length]; lia]). pose proof (inj_pos _ L) as LQ.
  set (T := inject_Z (zlen os)) in *. set (E := inject_Z (zlen l)) in *.
  pose proof (sum_err l (fun a => inject_Z (S a)) (fun a => T * P a)%Q e HS) as A1. rewrite qsum_scale, qsum_inject in A1. fold E in A1.
  pose proof (sum_err l (fun a => of_prob m (P a)) R q HR) as A2. fold E in A2.
  assert (N : near (e + 1) (qsum (map P l) / E) os).
  { split; [exact Hb|]. fold T. rewrite Ho. apply qabs_le in A1. apply qabs_le.
    pose proof (Z.div_mod (zsum (map S l)) (zlen l) ltac:(lia)) as DM. pose proof (Z.mod_pos_bound (zsum (map S l)) (zlen l) L) as MB.
    set (Z0 := zsum (map S l) / zlen l) in *. set (Z1 := zsum (map S l) mod zlen l) in *.
    assert (DQ : (inject_Z (zsum (map S l)) == E * inject_Z Z0 + inject_Z Z1)%Q).
    { rewrite DM. rewrite inject_Z_plus, inject_Z_mult. reflexivity. }
    assert (B0 : (0 <= inject_Z Z1)%Q) by (change 0%Q with (inject_Z 0); rewrite <- Zle_Qle; lia).
    assert (B1 : (inject_Z Z1 <= E)%Q) by (unfold E; rewrite <- Zle_Qle; lia).
    rewrite DQ in A1. set (z0 := inject_Z Z0) in *. set (z1 := inject_Z Z1) in *. set (X := qsum (map P l)) in *.
    assert (G : (E * (z0 - T * (X / E)) == (E * z0 - T * X))%Q) by (field; lra).
    split; apply (Qmult_le_l _ _ E LQ); rewrite G; lra. }
  pose proof (near_value m (e + 1) _ os N Hne) as V. fold T in V.
  pose proof (qsum_of_prob m l P Hl) as QP. fold E in QP. rewrite QP in V.
  assert (V2 : (Qabs (qsum (map (fun a => of_prob m (P a)) l) / E - qsum (map R l) / E) <= q)%Q).
  { apply qabs_le in A2. apply qabs_le. set (X := qsum (map (fun a => of_prob m (P a)) l)) in *. set (Y := qsum (map R l)) in *.
    assert (G : (E * (X / E - Y / E) == X - Y)%Q) by (field; lra). split; apply (Qmult_le_l _ _ E LQ); rewrite G; lra. }
  apply qabs_le in V. apply qabs_le in V2. apply qabs_le. split; lra.
Qed.

(** ** Quantised operands *)
Lemma grid_in m w s : src_ok m s -> (Qabs (grid_value m w (bingen m w s)) <= 1)%Q.
Proof.
  intros H. pose proof (proj1 (bingen_all m w) s H) as B. pose proof (p2_pos w) as P. pose proof (inj_pos _ P) as PQ.
  set (u := (inject_Z (bingen m w s) / inject_Z (p2 w))%Q).
  assert (V : (u * inject_Z (p2 w) == inject_Z (bingen m w s))%Q) by (unfold u; field; lra).
  assert (V0 : (0 <= u)%Q) by (apply (Qmult_le_r _ _ _ PQ); rewrite V, Qmult_0_l; change 0%Q with (inject_Z 0); rewrite <- Zle_Qle; lia).
  assert (V1 : (u <= 1)%Q) by (apply (Qmult_le_r _ _ _ PQ); rewrite V, Qmult_1_l; rewrite <- Zle_Qle; lia).
  apply qabs_le. unfold grid_value. fold u. destruct m; lra.
Qed.
Lemma grid_err m w s : (Qabs (grid_value m w (bingen m w s) - s) <= grid_step m w / 2)%Q.
Proof. exact (proj1 (proj2 (proj2 (bingen_all m w))) s). Qed.
Lemma grid_step_pos m w : (0 < grid_step m w)%Q.
Proof. pose proof (inj_pos _ (p2_pos w)) as P. unfold grid_step. destruct m; apply Qlt_shift_div_l; lra. Qed.
Lemma src_abs m s : src_ok m s -> (Qabs s <= 1)%Q.
Proof. unfold src_ok. intros H. apply qabs_le. destruct m; lra. Qed.
(** [gx] is a number of the range that is as near to x as the grid allows. *)
Lemma product_err m w x y gx : (Qabs gx <= 1)%Q -> (Qabs (gx - x) <= grid_step m w / 2)%Q -> src_ok m y ->
  (Qabs (gx * grid_value m w (bingen m w y) - x * y) <= grid_step m w)%Q.
Proof.
  intros Hg Hx Hy. pose proof (grid_err m w y) as Ey. pose proof (src_abs m y Hy) as Ay. pose proof (grid_step_pos m w) as SP.
  set (gy := grid_value m w (bingen m w y)) in *. set (s := grid_step m w) in *. clearbody gy s.
  assert (E : (gx * gy - x * y == gx * (gy - y) + (gx - x) * y)%Q) by ring. rewrite E.
  eapply Qle_trans; [apply Qabs_triangle|]. rewrite !Qabs_Qmult.
  pose proof (Qabs_nonneg gx). pose proof (Qabs_nonneg (gy - y)). pose proof (Qabs_nonneg (gx - x)). pose proof (Qabs_nonneg y).
  set (a := Qabs gx) in *. set (b := Qabs (gy - y)) in *. set (c := Qabs (gx - x)) in *. set (d := Qabs y) in *. clearbody a b c d.
  assert (s / 2 == s * (1 # 2))%Q as S2 by (field). rewrite S2 in *.
  assert (a * b <= s * (1#2))%Q by nra. assert (c * d <= s * (1 # 2))%Q by nra. lra.
Qed.

(** ** Prefixes *)
Lemma run_r_firstn {St I O} (step : St -> I -> result (St * O)) t : forall h s os, outputs (run_r step s h) = Some os ->
  outputs (run_r step s (firstn t h)) = Some (firstn t os).
Proof.
  induction t as [|t IH]; intros h s os H; [cbn; reflexivity|]. destruct h as [|x h].
  - cbn in H |- *. injection H as <-. reflexivity.
  - cbn [run_r firstn] in *. destruct (step s x) as [[s1 o]|e]; [|discriminate].
    specialize (IH h s1). destruct (run_r step s1 h) as [[s2 os2]|e] eqn:R; [|discriminate]. cbn [outputs] in H. injection H as <-.
    specialize (IH os2 eq_refl). destruct (run_r step s1 (firstn t h)) as [[s3 os3]|e] eqn:R3; [|discriminate].
    cbn [outputs] in IH |- *. injection IH as ->. reflexivity.
Qed.
Lemma firstn_seq t a n : (t <= n)%nat -> firstn t (seq a n) = seq a t.
Proof. revert a n. induction t as [|t IH]; intros a n H; [reflexivity|]. destruct n as [|n]; [lia|]. cbn [seq firstn]. f_equal. apply IH. lia. Qed.
Lemma bsgen_firstn B rng s t n : (t <= n)%nat -> firstn t (bsgen_stream B rng s n) = bsgen_stream B rng s t.
Proof. intros H. unfold bsgen_stream. rewrite firstn_map, firstn_seq by exact H. reflexivity. Qed.
Lemma outs_firstn {St I O} (step : St -> I -> St * O) t : forall xs s, firstn t (outs step s xs) = outs step s (firstn t xs).
Proof.
  induction t as [|t IH]; intros xs s; [reflexivity|]. destruct xs as [|x xs]; [reflexivity|].
  unfold outs in *. cbn [firstn run]. destruct (step s x) as [s1 o] eqn:E. specialize (IH xs s1).
  destruct (run step s1 xs) as [s2 os] eqn:R1. destruct (run step s1 (firstn t xs)) as [s3 os3] eqn:R2. cbn [snd firstn] in *. f_equal. exact IH.
Qed.

Lemma firstn_nonnil {A} t (l : list A) : (1 <= t <= length l)%nat -> firstn t l <> [].
Proof. intros H E. apply (f_equal (@length A)) in E. rewrite firstn_length in E. cbn in E. lia. Qed.
Lemma zlen_firstn {A} t (l : list A) : (t <= length l)%nat -> zlen (firstn t l) = Z.of_nat t.
Proof. intros H. unfold zlen. rewrite firstn_length. f_equal. lia. Qed.

(** ** Streams and the multiplier *)
Theorem bsgen_progress : forall m ext w d s n, (w <= 30)%nat -> dirvec_ok 30 (ext_dirvec ext d) -> src_ok m s ->
  progresses m (grid_step m w / 2) (inject_Z (Z.of_nat w)) s (bsgen_stream (bingen m w s) (rng_seq ext KSobol w d) 0 n).
Proof.
  intros m ext w d s n Hw HV Hs t Ht. pose proof (bsgen_stream_len (bingen m w s) (rng_seq ext KSobol w d) 0 n) as L. unfold zlen in L.
  rewrite bsgen_firstn by lia. pose proof (bsgen_near ext w d (bingen m w s) t Hw HV (proj1 (bingen_all m w) s Hs)) as N.
  pose proof (near_value m _ _ _ N) as V. rewrite bsgen_stream_len, of_prob_grid in V.
  pose proof (grid_err m w s) as G. apply qabs_le in G.
  assert (NE : bsgen_stream (bingen m w s) (rng_seq ext KSobol w d) 0 t <> []).
  { unfold bsgen_stream. destruct t; [lia|]. discriminate. }
  specialize (V NE). apply qabs_le in V. apply qabs_le. split; lra.
Qed.

Theorem mul_progress : forall m ext w d extx dx x y n, (w <= 30)%nat -> dirvec_ok 30 (ext_dirvec ext d) -> dirvec_ok 30 (ext_dirvec extx dx) ->
  src_ok m x -> src_ok m y ->
  progresses m (grid_step m w) (product_slack m w) (x * y)
    (outs (fsumul_static_step m (bingen m w y) (rng_seq ext KSobol w d)) fsumul_static_init
          (bsgen_stream (bingen m w x) (rng_seq extx KSobol w dx) 0 n)).
Proof.
  intros m ext w d extx dx x y n Hw HV HVx Hx Hy t Ht. rewrite outs_length in Ht.
  pose proof (bsgen_stream_len (bingen m w x) (rng_seq extx KSobol w dx) 0 n) as L. unfold zlen in L.
  rewrite outs_firstn, bsgen_firstn by lia.
  pose proof (bsgen_near extx w dx (bingen m w x) t Hw HVx (proj1 (bingen_all m w) x Hx)) as N.
  pose proof (bsgen_stream_len (bingen m w x) (rng_seq extx KSobol w dx) 0 t) as Lt.
  set (xs := bsgen_stream _ _ 0 t) in *.
  pose proof (mul_near m ext w d (bingen m w y) _ _ xs Hw HV (proj1 (bingen_all m w) y Hy) N) as N2.
  set (o := outs _ _ xs) in *. assert (Lo : zlen o = Z.of_nat t) by (unfold o, zlen in *; rewrite outs_length; exact Lt).
  assert (NE : o <> []) by (intros E; rewrite E in Lo; unfold zlen in Lo; cbn in Lo; lia).
  pose proof (near_value m _ _ _ N2 NE) as V. rewrite Lo, prod_prob_value, !of_prob_grid in V.
  assert (S : (inject_Z (match m with Unipolar => 1 | Bipolar => 2 end * Z.of_nat w) + inject_Z (Z.of_nat w) == product_slack m w)%Q).
  { unfold product_slack. rewrite <- inject_Z_plus. destruct m; apply inject_Z_injective; lia. }
  rewrite S in V.
  pose proof (product_err m w x y _ (grid_in m w x Hx) (grid_err m w x) Hy) as P.
  apply qabs_le in P. apply qabs_le in V. apply qabs_le. split; lra.
Qed.

(** ** Settling *)
Lemma qgt_true a b : qgt a b = true -> (b < a)%Q.
Proof. unfold qgt. intros H. apply negb_true_iff in H. apply Qnot_le_lt. intros L. apply Qle_bool_iff in L. congruence. Qed.
Lemma last_index_le {A} (f : A -> bool) (b : Z) : forall l k, 0 < k -> 0 <= b ->
  (forall i x, nth_error l i = Some x -> f x = true -> k + Z.of_nat i <= b) -> last_index f k l <= b.
Proof.
  induction l as [|y l IH]; intros k Hk Hb H; [exact Hb|]. cbn [last_index].
  destruct (last_index f (k + 1) l =? 0) eqn:E.
  - destruct (f y) eqn:F; [|exact Hb]. specialize (H O y eq_refl F). lia.
  - apply IH; [lia|exact Hb|]. intros i x Hi Hx. specialize (H (Datatypes.S i) x Hi Hx). lia.
Qed.
Theorem settles : forall m q K v scale source thr xs, bits xs -> xs <> [] -> progresses m q K v xs -> (0 <= K)%Q ->
  (qclamp (-1) 1 (source / scale) == v)%Q -> (q < thr)%Q ->
  (inject_Z (sb_cts (stab_monitors m scale source thr stab_init xs)) <= span m * K / (thr - q))%Q.
Proof.
  intros m q K v scale source thr xs Hb Hne P HK Hv Hq. pose proof (stability_all m scale source thr xs Hb Hne) as St. cbv zeta in St.
  destruct St as [-> _]. assert (S : (0 < span m)%Q) by (destruct m; cbn; lra).
  set (R := (span m * K / (thr - q))%Q). assert (R0 : (0 <= R)%Q) by (apply Qle_shift_div_l; [lra|]; nra).
  assert (F : (inject_Z (Qfloor R) <= R)%Q) by apply Qfloor_le.
  assert (Z0 : 0 <= Qfloor R) by (change 0 with (Qfloor 0); apply Qfloor_resp_le; exact R0).
  eapply Qle_trans; [|exact F]. rewrite <- Zle_Qle. apply last_index_le; [lia|exact Z0|].
  intros i ys Hi Hf. assert (Li : (i < length xs)%nat).
  { assert (nth_error (map (fun k => firstn (Datatypes.S k) xs) (seq 0 (length xs))) i <> None) as H by congruence.
    apply nth_error_Some in H. rewrite map_length, seq_length in H. exact H. }
  rewrite nth_error_map, (nth_error_nth' (seq 0 (length xs)) 0%nat) in Hi by (rewrite seq_length; exact Li). rewrite seq_nth in Hi by exact Li.
  cbn [option_map Nat.add] in Hi. injection Hi as <-.
  specialize (P (Datatypes.S i) ltac:(lia)). apply qgt_true in Hf.
  rewrite Hv in Hf. replace (1 + Z.of_nat i) with (Z.of_nat (Datatypes.S i)) by lia.
  set (t := Z.of_nat (Datatypes.S i)) in *. assert (T : (0 < inject_Z t)%Q) by (apply inj_pos; unfold t; lia).
  rewrite <- (Qfloor_Z t). apply Qfloor_resp_le. apply Qle_shift_div_l; [lra|].
  assert (C : (thr < q + span m * K / inject_Z t)%Q) by (eapply Qlt_le_trans; [exact Hf|exact P]).
  assert (E : (inject_Z t * (span m * K / inject_Z t) == span m * K)%Q) by (field; lra).
  set (z := (span m * K / inject_Z t)%Q) in *. rewrite <- E. nra.
Qed.

(** ** Layers *)
Definition terms {A} (l : list A) (bias : bool) : list (option A) := map Some l ++ (if bias then [None] else []).
Lemma terms_in {A} (l : list A) bias a : In a (terms l bias) -> match a with Some i => In i l | None => bias = true end.
Proof.
  unfold terms. intros H. apply in_app_or in H. destruct H as [H|H].
  - apply in_map_iff in H. destruct H as (i & <- & Hi). exact Hi.
  - destruct bias; [|contradiction]. destruct H as [<-|[]]. reflexivity.
Qed.
Lemma terms_len {A} (l : list A) bias : zlen (terms l bias) = zlen l + b2z bias.
Proof. unfold terms, zlen. rewrite app_length, map_length. destruct bias; cbn; lia. Qed.
Lemma terms_zsum {A} (l : list A) bias f s : zsum (map (fun a => match a with Some i => f i | None => s end) (terms l bias)) =
  zsum (map f l) + if bias then s else 0.
Proof. unfold terms. rewrite map_app, map_map, zsum_app. f_equal. destruct bias; [apply Z.add_0_r|reflexivity]. Qed.
Lemma terms_qsum {A} (l : list A) bias f s : (qsum (map (fun a => match a with Some i => f i | None => s end) (terms l bias)) ==
  qsum (map f l) + if bias then s else 0)%Q.
Proof. unfold terms. rewrite map_app, map_map, qsum_app. apply Qplus_inj_l. destruct bias; [apply Qplus_0_r|reflexivity]. Qed.

(** One output lane of a layer at the default scale: [l] the inputs, [xs] their streams, [g] the values these tend to, [x] the real inputs, [y] the real weights. *)
Lemma lane_near {A} m w ext d (l : list A) (bias : bool) (xs : A -> list Z) (ux x y : A -> Q) (b : Q) T os :
  (1 <= w <= 30)%nat -> dirvec_ok 30 (ext_dirvec ext d) -> l <> [] -> (1 <= T)%nat -> bits os -> zlen os = Z.of_nat T ->
  (forall i, In i l -> zlen (xs i) = Z.of_nat T /\ near (inject_Z (Z.of_nat w)) (ux i) (xs i) /\
     (Qabs (of_prob m (ux i)) <= 1)%Q /\ (Qabs (of_prob m (ux i) - x i) <= grid_step m w / 2)%Q /\ src_ok m (y i)) ->
  (bias = true -> src_ok m b) ->
  ones os = (zsum (map (fun i => ones (outs (fsumul_static_step m (bingen m w (y i)) (rng_seq ext KSobol w d)) fsumul_static_init (xs i))) l)
             + if bias then ones (bsgen_stream (bingen m w b) (rng_seq ext KSobol w d) 0 T) else 0) / (zlen l + b2z bias) ->
  (Qabs (value m os - (qsum (map (fun i => x i * y i) l) + (if bias then b else 0)) / inject_Z (zlen l + b2z bias))
   <= grid_step m w + span m * (product_slack m w + 1) / inject_Z (Z.of_nat T))%Q.
Proof.
  intros Hw HV Hl HT Hb Lo Hx Hbias Ho. rewrite <- (terms_zsum l bias), <- terms_len in Ho.
  set (sb := ones (bsgen_stream _ _ 0 T)) in *.
  assert (Hne : os <> []) by (intros E; rewrite E in Lo; unfold zlen in Lo; cbn in Lo; lia).
  assert (Hln : terms l bias <> []) by (unfold terms; destruct l; [contradiction|discriminate]).
  set (P := fun a : option A => match a with Some i => prod_prob m (ux i) (inject_Z (bingen m w (y i)) / inject_Z (p2 w))
                                | None => inject_Z (bingen m w b) / inject_Z (p2 w) end%Q).
  set (R := fun a : option A => match a with Some i => x i * y i | None => b end%Q).
  assert (S : (inject_Z (match m with Unipolar => 1 | Bipolar => 2 end * Z.of_nat w) + inject_Z (Z.of_nat w) == product_slack m w)%Q).
  { unfold product_slack. rewrite <- inject_Z_plus. destruct m; apply inject_Z_injective; lia. }
  pose proof (adder_near m (product_slack m w) (grid_step m w) (terms l bias) _ P R os Hln Hb Hne Ho) as G.
  rewrite Lo, terms_len in G. unfold R in G. rewrite terms_qsum in G. apply G.
  - intros a Ha. apply terms_in in Ha. destruct a as [i|]; unfold P.
    + destruct (Hx i Ha) as (Li & N & _ & _ & Hy).
      pose proof (mul_near m ext w d (bingen m w (y i)) _ _ (xs i) (proj2 Hw) HV (proj1 (bingen_all m w) _ Hy) N) as [_ D].
      rewrite S in D. assert (E : zlen (outs (fsumul_static_step m (bingen m w (y i)) (rng_seq ext KSobol w d)) fsumul_static_init (xs i)) = Z.of_nat T).
      { unfold zlen in *. rewrite outs_length. exact Li. }
      rewrite E in D. exact D.
    + destruct (bsgen_near ext w d (bingen m w b) T (proj2 Hw) HV (proj1 (bingen_all m w) b (Hbias Ha))) as [_ D].
      rewrite bsgen_stream_len in D. fold sb in D. eapply Qle_trans; [exact D|]. unfold product_slack. rewrite <- Zle_Qle. destruct m; lia.
  - intros a Ha. apply terms_in in Ha. destruct a as [i|]; unfold P.
    + destruct (Hx i Ha) as (_ & _ & A1 & A2 & Hy). rewrite prod_prob_value, of_prob_grid.
      exact (product_err m w (x i) (y i) _ A1 A2 Hy).
    + rewrite of_prob_grid. pose proof (grid_err m w b) as D. pose proof (grid_step_pos m w) as SP.
      eapply Qle_trans; [exact D|]. apply Qle_shift_div_r; lra.
Qed.

(** ** FSULinear *)
Lemma shape2_spec {A} r c (x : list (list A)) : shape2 r c x = true -> List.length x = r /\ Forall (fun l => List.length l = c) x.
Proof.
  unfold shape2. intros H. apply andb_true_iff in H. destruct H as [H1 H2]. apply Nat.eqb_eq in H1. split; [exact H1|].
  apply Forall_forall. rewrite forallb_forall in H2. intros l Hl. apply Nat.eqb_eq. exact (H2 l Hl).
Qed.
Lemma lin_parts ext ni no bias we be winit w m_name r_name dimr depth c a m :
  flin_new ext ni no bias (Some we) be winit w m_name r_name dimr None depth = Ok (c, a) ->
  names_mode m_name m -> named r_name ["sobol"%string; "rc"%string] ->
  a = flin_acc_cfg c None depth /\ pc_shape c /\ pc_mode c = m /\ pc_wtc c = false /\ pc_rng c = rng_seq ext KSobol w dimr /\
  pc_in c = ni /\ pc_out c = no /\ pc_weight c = map (map (bingen m w)) we /\ shape2 no ni we = true /\
  (bias = true -> exists b, be = Some b /\ List.length b = no) /\
  pc_bias c = option_map (map (bingen m w)) (if bias then be else None).
Proof.
  intros E Hm Hr. apply NewProof.mode_named in Hm. pose proof (proj1 (rng_names r_name) Hr) as Hk.
  unfold flin_new in E. cbv zeta in E. rewrite Hk in E. cbn [is_tc] in E. rewrite andb_false_r in E.
  unfold pc_new in E. rewrite Hm, Hk in E. cbn [bind] in E.
  destruct (shape2 no ni we) eqn:Sh; [|discriminate]. cbn [bind] in E. pose proof (shape2_spec _ _ _ Sh) as [S1 S2].
  assert (W : pc_shape {| pc_mode := m; pc_wtc := is_tc KSobol; pc_rng := rng_seq ext KSobol w dimr; pc_in := ni; pc_out := no; pc_weight := map (map (bingen m w)) we; pc_bias := None |}).
  { unfold pc_shape. cbn. rewrite map_length. split; [exact S1|]. split; [|exact Logic.I]. apply Forall_forall. intros r Hr'. apply in_map_iff in Hr'.
    destruct Hr' as (r0 & <- & H0). rewrite map_length. rewrite Forall_forall in S2. exact (S2 r0 H0). }
  destruct W as (W1 & W2 & _). cbn in W1, W2.
  destruct bias; [destruct be as [b|]; [destruct (List.length b =? no)%nat eqn:Lb|]|]; cbn [bind] in E; try discriminate; injection E as <- <-;
    (split; [reflexivity|]); unfold pc_shape; cbn; repeat (split; [first [reflexivity|assumption|(split; [exact W1|split; [exact W2|rewrite ?map_length; first [exact Logic.I | apply Nat.eqb_eq; exact Lb]]])]|]).
  - split; [intros _; exists b; split; [reflexivity|apply Nat.eqb_eq; exact Lb]|reflexivity].
  - split; [discriminate|reflexivity].
Qed.

Lemma lane_firstn t h b i : lane (firstn t h) b i = firstn t (lane h b i).
Proof. unfold lane. symmetry. apply firstn_map. Qed.
Lemma lane_len h b i : zlen (lane h b i) = zlen h.
Proof. unfold lane, zlen. rewrite map_length. reflexivity. Qed.
Lemma forall_firstn {A} (P : A -> Prop) t l : Forall P l -> Forall P (firstn t l).
Proof. revert t. induction l as [|x l IH]; intros [|t] H; try constructor; inversion H; subst; [assumption|]. apply IH. assumption. Qed.
Lemma lane_bits B n h b i : Forall (batch_ok B n) h -> (b < B)%nat -> (i < n)%nat -> bits (lane h b i).
Proof.
  intros H Hb Hi. unfold lane, bits. apply Forall_forall. intros z Hz. apply in_map_iff in Hz. destruct Hz as (x & <- & Hx).
  rewrite Forall_forall in H. destruct (H x Hx) as [L R]. rewrite Forall_forall in R.
  destruct (R (nth b x []) ltac:(apply nth_In; lia)) as [Lr Rb]. unfold entry2. unfold bits in Rb. rewrite Forall_forall in Rb. apply Rb. apply nth_In. lia.
Qed.

Theorem linear_progress : forall ext ni no bias we be winit w m_name r_name dimr depth c a m,
  flin_new ext ni no bias (Some we) be winit w m_name r_name dimr None depth = Ok (c, a) ->
  names_mode m_name m -> named r_name ["sobol"%string; "rc"%string] -> (1 <= ni)%nat -> (1 <= w <= 30)%nat -> dirvec_ok 30 (ext_dirvec ext dimr) ->
  Forall (Forall (src_ok m)) we -> src_opt m be -> (inject_Z (2 * (Z.of_nat ni + b2z bias) - 1) <= Qpower 2 (depth - 2))%Q ->
  forall B h extx dimx x, (1 <= B)%nat -> Forall (batch_ok B ni) h ->
  (forall b i, (b < B)%nat -> (i < ni)%nat -> dirvec_ok 30 (ext_dirvec extx (dimx b i)) /\ src_ok m (x b i) /\
     lane h b i = bsgen_stream (bingen m w (x b i)) (rng_seq extx KSobol w (dimx b i)) 0 (length h)) ->
  exists os, outputs (run_r (flin_step c a) (flin_init c) (no_args h)) = Some os /\ length os = length h /\ Forall (batch_ok B no) os /\
  forall b o, (b < B)%nat -> (o < no)%nat ->
    progresses m (grid_step m w) (product_slack m w + 1)
      ((dotq ni (x b) (qentry we o) + bias_entry (if bias then be else None) o) / inject_Z (Z.of_nat ni + b2z bias)) (lane os b o).
Proof.
  intros ext ni no bias we be winit w mn rn dimr depth c a m E Hm Hr Hni Hw HV Hwe Hbe Hd B h extx dimx x HB Hh Hx.
  destruct (lin_parts _ _ _ _ _ _ _ _ _ _ _ _ _ _ _ E Hm Hr) as (-> & Sh & Em & Et & Er & Ei & Eo & Ew & S2 & Hbl & Eb). clear E.
  assert (EE : flin_entry c = Z.of_nat ni + b2z bias).
  { unfold flin_entry. rewrite Ei, Eb. destruct bias; [|reflexivity]. destruct (Hbl eq_refl) as (b & -> & _). reflexivity. }
  pose proof (rng_sobol_perm ext w dimr (proj2 Hw) HV) as HP.
  assert (RO : rng_ok c).
  { unfold rng_ok. rewrite Er, (Permutation_length HP), len_zrange. assert (2 ^ w <> 0)%nat by (apply Nat.pow_nonzero; lia). lia. }
  assert (GO : forall h', Forall (batch_ok B ni) h' ->
    exists os, outputs (run_r (flin_step c (flin_acc_cfg c None depth)) (flin_init c) (no_args h')) = Some os /\
      length os = length h' /\ Forall (batch_ok B (pc_out c)) os /\
      forall b o, (b < B)%nat -> (o < pc_out c)%nat ->
      ones (lane os b o) =
      (zsum (map (fun i => ones (outs (fsumul_static_step (pc_mode c) (entry2 (pc_weight c) o i) (pc_rng c))
                                      fsumul_static_init (lane h' b i))) (seq 0 (pc_in c)))
       + match pc_bias c with None => 0 | Some bs => ones (bsgen_stream (nth o bs 0) (pc_rng c) 0 (length h')) end)
      / (Z.of_nat (pc_in c) + match pc_bias c with None => 0 | Some _ => 1 end)).
  { intros h' Hh'. apply (flin_rate c depth B h' Sh RO Et HB); [rewrite EE; destruct bias; cbn [b2z]; lia|rewrite EE; exact Hd|rewrite Ei; exact Hh']. }
  destruct (GO h Hh) as (os & R & Lo & Fo & _). exists os. split; [exact R|]. split; [exact Lo|]. split; [rewrite Eo in Fo; exact Fo|].
  intros b o Hb Ho t Ht. unfold lane in Ht at 1. rewrite map_length, Lo in Ht. rewrite <- lane_firstn.
  destruct (GO (firstn t h) (forall_firstn _ _ _ Hh)) as (os' & R' & Lo' & Fo' & Ones).
  pose proof (run_r_firstn _ t _ _ _ R) as R2. unfold no_args in R2, R'. rewrite firstn_map in R2. rewrite R2 in R'. injection R' as <-.
  specialize (Ones b o Hb ltac:(rewrite Eo; exact Ho)). rewrite firstn_length, Nat.min_l in Lo' by lia.
  assert (Lh : length (firstn t h) = t) by (rewrite firstn_length; lia). rewrite Lh in Ones.
  rewrite Em, Er, Ei, Ew, Eb in Ones.
  pose proof (shape2_spec _ _ _ S2) as [W1 W2].
  assert (We : forall i, (i < ni)%nat -> entry2 (map (map (bingen m w)) we) o i = bingen m w (qentry we o i)).
  { intros i Hi. unfold entry2, qentry. rewrite Forall_forall in W2. specialize (W2 (nth o we []) ltac:(apply nth_In; lia)).
    rewrite nth_indep with (d' := map (bingen m w) []) by (rewrite map_length; lia). rewrite map_nth.
    rewrite nth_indep with (d' := bingen m w 0%Q) by (rewrite map_length; lia). rewrite map_nth. reflexivity. }
  assert (Wy : forall i, (i < ni)%nat -> src_ok m (qentry we o i)).
  { intros i Hi. unfold qentry. rewrite Forall_forall in W2. specialize (W2 (nth o we []) ltac:(apply nth_In; lia)).
    rewrite Forall_forall in Hwe. specialize (Hwe (nth o we []) ltac:(apply nth_In; lia)). rewrite Forall_forall in Hwe. apply Hwe. apply nth_In. lia. }
  assert (Bb : bias = true -> src_ok m (bias_entry be o)).
  { intros Ebias. destruct (Hbl Ebias) as (bl & -> & Lb). cbn [bias_entry src_opt] in *. rewrite Forall_forall in Hbe. apply Hbe. apply nth_In. lia. }
  pose proof (lane_near m w ext dimr (seq 0 ni) bias (lane (firstn t h) b) (fun i => inject_Z (bingen m w (x b i)) / inject_Z (p2 w))%Q
                (x b) (qentry we o) (bias_entry be o) t (lane (firstn t os) b o) Hw HV) as G.
  assert (Zs : zlen (seq 0 ni) = Z.of_nat ni) by (unfold zlen; rewrite seq_length; reflexivity). rewrite Zs in G.
  assert (Lf : zlen (firstn t h) = Z.of_nat t) by (unfold zlen; rewrite Lh; reflexivity).
  assert (Lfo : zlen (firstn t os) = Z.of_nat t) by (unfold zlen; rewrite firstn_length; lia).
  assert (G2 : (Qabs (value m (lane (firstn t os) b o) -
     (qsum (map (fun i => x b i * qentry we o i) (seq 0 ni)) + (if bias then bias_entry be o else 0)) / inject_Z (Z.of_nat ni + b2z bias))
     <= grid_step m w + span m * (product_slack m w + 1) / inject_Z (Z.of_nat t))%Q).
  { apply G.
    - destruct ni; [lia|discriminate].
    - lia.
    - apply (lane_bits B (pc_out c)); [exact Fo'|exact Hb|lia].
    - rewrite lane_len. exact Lfo.
    - intros i Hi. apply in_seq in Hi. destruct (Hx b i Hb ltac:(lia)) as (V & Hs & L). split; [rewrite lane_len; exact Lf|].
      split; [|split; [|split]].
      + rewrite lane_firstn, L, bsgen_firstn by lia. apply bsgen_near; [lia|exact V|exact (proj1 (bingen_all m w) _ Hs)].
      + rewrite of_prob_grid. apply grid_in. exact Hs.
      + rewrite of_prob_grid. apply grid_err.
      + apply Wy. lia.
    - exact Bb.
    - rewrite Ones. f_equal; [|destruct bias; [|reflexivity]; destruct (Hbl eq_refl) as (bl & -> & _); reflexivity].
      f_equal.
      + f_equal. apply map_ext_in. intros i Hi. apply in_seq in Hi. rewrite We by lia. reflexivity.
      + destruct bias; [|reflexivity]. destruct (Hbl eq_refl) as (bl & -> & Lb). cbn [option_map bias_entry].
        rewrite nth_indep with (d' := bingen m w 0%Q) by (rewrite map_length; lia). rewrite map_nth. reflexivity. }
  unfold dotq. destruct bias; exact G2.
Qed.

(** ** FSUConv2d *)
Definition triples (C kh kw : nat) : list (nat * nat * nat) :=
  flat_map (fun c => flat_map (fun i => map (fun j => (c, i, j)) (seq 0 kw)) (seq 0 kh)) (seq 0 C).
Lemma triples_in C kh kw c i j : In (c, i, j) (triples C kh kw) -> (c < C)%nat /\ (i < kh)%nat /\ (j < kw)%nat.
Proof.
  unfold triples. intros H. apply in_flat_map in H. destruct H as (c' & Hc & H). apply in_flat_map in H. destruct H as (i' & Hi & H).
  apply in_map_iff in H. destruct H as (j' & E & Hj). injection E as -> -> ->. apply in_seq in Hc, Hi, Hj. lia.
Qed.
Lemma zsum_flat_map {A B} (f : B -> Z) (g : A -> list B) l : zsum (map f (flat_map g l)) = zsum (map (fun a => zsum (map f (g a))) l).
Proof. induction l as [|a l IH]; [reflexivity|]. cbn [flat_map map]. rewrite map_app, zsum_app, IH. reflexivity. Qed.
Lemma qsum_flat_map {A B} (f : B -> Q) (g : A -> list B) l : (qsum (map f (flat_map g l)) == qsum (map (fun a => qsum (map f (g a))) l))%Q.
Proof. induction l as [|a l IH]; [reflexivity|]. cbn [flat_map map qsum]. rewrite map_app, qsum_app, IH. reflexivity. Qed.
Lemma triples_zsum C kh kw f : zsum (map (fun a => f (fst (fst a)) (snd (fst a)) (snd a)) (triples C kh kw)) = sum_taps C kh kw f.
Proof.
  unfold triples, sum_taps. rewrite zsum_flat_map. f_equal. apply map_ext. intros c. rewrite zsum_flat_map. f_equal. apply map_ext. intros i.
  rewrite map_map. reflexivity.
Qed.
Lemma triples_qsum C kh kw f : (qsum (map (fun a => f (fst (fst a)) (snd (fst a)) (snd a)) (triples C kh kw)) == sumq_taps C kh kw f)%Q.
Proof.
  unfold triples, sumq_taps. rewrite qsum_flat_map. apply qsum_ext_in. intros c _. rewrite qsum_flat_map. apply qsum_ext_in. intros i _.
  rewrite map_map. reflexivity.
Qed.
Lemma triples_len C kh kw : zlen (triples C kh kw) = Z.of_nat (C * (kh * kw)).
Proof.
  unfold zlen, triples. rewrite (flat_map_length _ (kh * kw)); [rewrite seq_length; reflexivity|].
  intros c _. rewrite (flat_map_length _ kw); [rewrite seq_length; reflexivity|]. intros i _. rewrite map_length, seq_length. reflexivity.
Qed.

Lemma nth_map_seq_list {A B} (d : A) (f : A -> B) (l : list A) : map (fun t => f (nth t l d)) (seq 0 (length l)) = map f l.
Proof.
  induction l as [|a l IH]; [reflexivity|]. cbn [length seq map]. cbn [nth]. f_equal. rewrite <- seq_shift, map_map. exact IH.
Qed.
Lemma entry4_default {A} (P : A -> Prop) (d d' : A) N C H W t n c y x : tensor_ok P N C H W t -> (n < N)%nat -> (c < C)%nat -> (y < H)%nat -> (x < W)%nat ->
  entry4 d t n c y x = entry4 d' t n c y x.
Proof.
  intros [L F] Hn Hc Hy Hx. rewrite Forall_forall in F. destruct (F (nth n t []) ltac:(apply nth_In; lia)) as [LC FC].
  rewrite Forall_forall in FC. destruct (FC (nth c (nth n t []) []) ltac:(apply nth_In; lia)) as [LH FH].
  rewrite Forall_forall in FH. destruct (FH (nth y (nth c (nth n t []) []) []) ltac:(apply nth_In; lia)) as [LW _].
  unfold entry4. apply nth_indep. lia.
Qed.
Lemma entry4_in {A} (P : A -> Prop) (d : A) N C H W t n c y x : tensor_ok P N C H W t -> (n < N)%nat -> (c < C)%nat -> (y < H)%nat -> (x < W)%nat ->
  P (entry4 d t n c y x).
Proof.
  intros [L F] Hn Hc Hy Hx. rewrite Forall_forall in F. destruct (F (nth n t []) ltac:(apply nth_In; lia)) as [LC FC].
  rewrite Forall_forall in FC. destruct (FC (nth c (nth n t []) []) ltac:(apply nth_In; lia)) as [LH FH].
  rewrite Forall_forall in FH. destruct (FH (nth y (nth c (nth n t []) []) []) ltac:(apply nth_In; lia)) as [LW FW].
  rewrite Forall_forall in FW. unfold entry4. apply FW. apply nth_In. lia.
Qed.
(** A tap inside the image sees the stream of the pixel. *)
Lemma inside_stream c p N H W h n y x k i j :
  let yy := Z.of_nat (y * fst (cv_stride c) + i * fst (cv_dil c)) - Z.of_nat p in
  let xx := Z.of_nat (x * snd (cv_stride c) + j * snd (cv_dil c)) - Z.of_nat p in
  Forall (tensor_ok bit N (cv_chan c) H W) h -> (n < N)%nat -> (k < cv_chan c)%nat ->
  0 <= yy < Z.of_nat H -> 0 <= xx < Z.of_nat W ->
  tap_stream c p H W h n y x k i j = lane4 h n k (Z.to_nat yy) (Z.to_nat xx).
Proof.
  intros yy xx Hh Hn Hk Hy Hx. unfold tap_stream, lane4. fold yy xx. rewrite <- (nth_map_seq_list [] (fun t => entry4 0 t n k (Z.to_nat yy) (Z.to_nat xx)) h).
  apply map_ext_in. intros t Ht. apply in_seq in Ht. unfold surrounded.
  assert (B : (0 <=? yy) && (yy <? Z.of_nat H) && (0 <=? xx) && (xx <? Z.of_nat W) = true) by lia. rewrite B.
  rewrite Forall_forall in Hh. apply (entry4_default bit _ _ N (cv_chan c) H W); try lia. apply Hh, nth_In. lia.
Qed.
Lemma border_near m w T : (1 <= w)%nat -> near (inject_Z (Z.of_nat w)) (match m with Unipolar => 0 | Bipolar => 1 # 2 end)%Q
  (match m with Unipolar => repeat 0 T | Bipolar => alternating T end).
Proof.
  intros Hw. destruct m.
  - split; [apply Forall_forall; intros z Hz; apply repeat_spec in Hz; left; exact Hz|].
    assert (E : ones (repeat 0 T) = 0) by (clear; induction T as [|T IH]; [reflexivity|]; cbn [repeat]; unfold ones in *; cbn [countb]; rewrite IH; reflexivity).
    rewrite E. assert (C : (inject_Z 0 <= inject_Z (Z.of_nat w))%Q) by (rewrite <- Zle_Qle; lia). change (inject_Z 0) with 0%Q in *.
    apply qabs_le. generalize (inject_Z (zlen (repeat 0 T))). intros q. split; lra.
  - pose proof (alternating_bits T) as Hb. split; [exact Hb|]. pose proof (alternating_walk T) as Wk. rewrite (walk_ones _ Hb) in Wk.
    pose proof (Z.mod_pos_bound (Z.of_nat T) 2 ltac:(lia)) as MB.
    set (o := ones (alternating T)) in *. set (l := zlen (alternating T)) in *.
    assert (D : (2 * (inject_Z o - inject_Z l * (1 # 2)) == inject_Z (2 * o - l))%Q).
    { unfold Z.sub. rewrite inject_Z_plus, inject_Z_opp, inject_Z_mult. change (inject_Z 2) with 2%Q. ring. }
    assert (B : (inject_Z (-1) <= inject_Z (2 * o - l) <= inject_Z 0)%Q) by (rewrite <- !Zle_Qle; lia).
    change (inject_Z (-1)) with (-1)%Q in B. change (inject_Z 0) with 0%Q in B.
    assert (C : (inject_Z 1 <= inject_Z (Z.of_nat w))%Q) by (rewrite <- Zle_Qle; lia). change (inject_Z 1) with 1%Q in C.
    apply qabs_le. rewrite <- D in B. split; lra.
Qed.
Lemma lane4_firstn t h n c y x : lane4 (firstn t h) n c y x = firstn t (lane4 h n c y x).
Proof. unfold lane4. symmetry. apply firstn_map. Qed.

Lemma conv_bits c depth p N H W ho wo h : conv_geom c p H W ho wo -> rng_ok (cv_pc c) -> pc_wtc (cv_pc c) = false -> (1 <= N)%nat ->
  0 < flin_entry (cv_pc c) -> (inject_Z (2 * flin_entry (cv_pc c) - 1) <= qpow2 (depth - 2))%Q ->
  Forall (tensor_ok bit N (cv_chan c) H W) h -> forall os,
  outputs (run_r (fconv_step c (flin_acc_cfg (cv_pc c) None depth)) (fconv_init c) (no_args4 h)) = Some os ->
  Forall (tensor_ok bit N (pc_out (cv_pc c)) ho wo) os.
Proof.
  intros G Hr Hw HN He Hd Hh os R.
  destruct (fconv_windows c (flin_acc_cfg (cv_pc c) None depth) p N H W ho wo (no_args4 h) G HN) as (g & ys & os' & A1 & A2 & A3 & _ & R1 & R2 & Lo & Ent);
    [rewrite fc_inputs_no_args; exact Hh|].
  assert (os' = os) by congruence. subst os'.
  assert (Eg : g = no_args (fl_inputs g)).
  { assert (forall h' : list (list (image Z)), map (fun x => snd (fst x)) g = map (fun x => snd (fst x)) (no_args4 h') -> map snd g = map snd (no_args4 h') -> g = no_args (fl_inputs g)) as Q.
    { clear. induction g as [|[[x s] e] g IH]; intros h' E1 E2; [reflexivity|]. destruct h' as [|x' h']; [discriminate|].
      cbn in E1, E2. injection E1 as -> E1. injection E2 as -> E2. unfold no_args, fl_inputs in *. cbn [map fst]. f_equal. apply (IH h'); assumption. }
    exact (Q h A1 A2). }
  assert (HB : (1 <= N * (ho * wo))%nat).
  { destruct G as (_ & _ & _ & _ & _ & _ & _ & _ & _ & G1 & G2 & _). nia. }
  destruct (flin_rate (cv_pc c) depth (N * (ho * wo)) (fl_inputs g) (proj1 G) Hr Hw HB He Hd A3) as (ys' & R3 & Ly & Fy & _).
  rewrite <- Eg in R3. assert (ys' = ys) by congruence. subst ys'.
  apply Forall_forall. intros o Ho. apply (In_nth _ _ []) in Ho. destruct Ho as (t & Ht & <-).
  assert (Lh : length (no_args4 h) = length h) by (unfold no_args4; apply map_length).
  destruct (Ent t ltac:(lia)) as [T E].
  assert (Lg : length (fl_inputs g) = length h).
  { unfold fl_inputs. rewrite map_length, <- (map_length snd g), A2, map_length. exact Lh. }
  assert (Fyt : batch_ok (N * (ho * wo)) (pc_out (cv_pc c)) (nth t ys [])) by (rewrite Forall_forall in Fy; apply Fy, nth_In; lia).
  destruct T as [L F]. split; [exact L|]. apply Forall_forall. intros img Hi. apply (In_nth _ _ []) in Hi. destruct Hi as (n & Hn & <-).
  rewrite Forall_forall in F. destruct (F (nth n (nth t os []) []) ltac:(apply nth_In; exact Hn)) as [LC FC]. split; [exact LC|].
  apply Forall_forall. intros ch Hc. apply (In_nth _ _ []) in Hc. destruct Hc as (q & Hq & <-).
  rewrite Forall_forall in FC. destruct (FC (nth q (nth n (nth t os []) []) []) ltac:(apply nth_In; exact Hq)) as [LH FH]. split; [exact LH|].
  apply Forall_forall. intros row Hrow. apply (In_nth _ _ []) in Hrow. destruct Hrow as (y & Hy & <-).
  rewrite Forall_forall in FH. destruct (FH (nth y (nth q (nth n (nth t os []) []) []) []) ltac:(apply nth_In; exact Hy)) as [LW _]. split; [exact LW|].
  apply Forall_forall. intros z Hz. apply (In_nth _ _ 0) in Hz. destruct Hz as (x & Hx & <-).
  change (bit (entry4 0 (nth t os []) n q y x)). rewrite E by lia.
  destruct Fyt as [Lb Fb]. rewrite Forall_forall in Fb.
  assert (HR : (row_index ho wo n y x < N * (ho * wo))%nat) by (apply fold_index; lia).
  destruct (Fb (nth (row_index ho wo n y x) (nth t ys []) []) ltac:(apply nth_In; lia)) as [Lr Br].
  unfold entry2. unfold bits in Br. rewrite Forall_forall in Br. apply Br, nth_In. lia.
Qed.

Lemma fconv_parts ext C no kernel stride pad dil groups bias pm we be winit w m_name r_name dimr depth c a m :
  fconv_new ext C no kernel stride pad dil groups bias pm (Some we) be winit w m_name r_name dimr None depth = Ok (c, a) ->
  names_mode m_name m -> named r_name ["sobol"%string; "rc"%string] ->
  a = flin_acc_cfg (cv_pc c) None depth /\ pc_shape (cv_pc c) /\ pc_mode (cv_pc c) = m /\ pc_wtc (cv_pc c) = false /\
  pc_rng (cv_pc c) = rng_seq ext KSobol w dimr /\ pc_in (cv_pc c) = (C * (fst kernel * snd kernel))%nat /\ pc_out (cv_pc c) = no /\
  cv_chan c = C /\ cv_kernel c = kernel /\ cv_stride c = stride /\ cv_dil c = dil /\ cv_pad c = pad /\
  (forall q z i j, (q < no)%nat -> (z < C)%nat -> (i < fst kernel)%nat -> (j < snd kernel)%nat ->
     entry2 (pc_weight (cv_pc c)) q (tap_index (fst kernel) (snd kernel) z i j) = bingen m w (entry4 0%Q we q z i j)) /\
  (bias = true -> exists b, be = Some b /\ List.length b = no) /\
  pc_bias (cv_pc c) = option_map (map (bingen m w)) (if bias then be else None).
Proof.
  intros E Hm Hr. apply NewProof.mode_named in Hm. pose proof (proj1 (rng_names r_name) Hr) as Hk.
  pose proof (fconv_new_accepts _ _ _ _ _ _ _ _ _ _ _ _ _ _ _ _ _ _ _ _ _ E) as [Ec _].
  pose proof (conv_new_accepts _ _ _ _ _ _ _ _ _ _ _ _ _ _ _ _ _ _ Ec) as (-> & -> & _ & _ & Sh & Hb).
  assert (Ar : conv_args_ok C no (fst kernel) (snd kernel) bias (Some we) be winit).
  { split; [exact Sh|]. destruct be as [b|]; [|exact Logic.I]. intros Eb. destruct (Hb Eb) as (b' & X & L). injection X as <-. exact L. }
  pose proof (conv_new_outcome ext C no kernel stride pad dil bias (Some we) be winit w m_name r_name dimr m KSobol Hm Hk Ar) as O. rewrite Ec in O.
  destruct O as (_ & P1 & P2 & P3 & P4 & P5 & _ & P6 & P7 & P8 & P9 & P10 & P11).
  pose proof (fconv_new_outcome ext C no kernel stride pad dil bias (Some we) be winit w m_name r_name dimr None depth m KSobol Hm Hk Ar (or_introl eq_refl)) as O.
  rewrite E in O. destruct O as [_ ->].
  assert (PB : pc_rng (cv_pc c) = rng_seq ext KSobol w dimr /\ pc_bias (cv_pc c) = option_map (map (bingen m w)) (if bias then be else None)).
  { clear - Ec Hm Hk Hb. unfold conv_new in Ec. rewrite !Nat.mod_1_r in Ec. cbn [Nat.eqb andb negb] in Ec. change (negb (padding_mode_known "zeros")) with false in Ec.
    change (negb ("zeros" =? "zeros")%string) with false in Ec. rewrite Hm, Hk in Ec. cbn [bind] in Ec. destruct kernel as [kh kw].
    destruct (shape4 no C kh kw we); [|discriminate]. cbn [bind] in Ec.
    destruct bias; [destruct be as [b|]; [destruct (List.length b =? no)%nat|]|]; cbn [bind] in Ec; try discriminate; injection Ec as <-; split; reflexivity. }
  destruct PB as [PR PB]. repeat (split; [assumption || reflexivity|]). exact PB.
Qed.

Theorem conv_progress : forall ext C no kernel stride p dil groups bias pm we be winit w m_name r_name dimr depth c a m,
  fconv_new ext C no kernel stride (PadNum p) dil groups bias pm (Some we) be winit w m_name r_name dimr None depth = Ok (c, a) ->
  names_mode m_name m -> named r_name ["sobol"%string; "rc"%string] -> (1 <= w <= 30)%nat -> dirvec_ok 30 (ext_dirvec ext dimr) ->
  tensor_ok (src_ok m) no C (fst kernel) (snd kernel) we -> src_opt m be ->
  (inject_Z (2 * (Z.of_nat (taps C kernel) + b2z bias) - 1) <= Qpower 2 (depth - 2))%Q ->
  forall N H W ho wo h extx dimx img, conv_sizes kernel stride dil p C H W ho wo -> (1 <= N)%nat ->
  tensor_ok (src_ok m) N C H W img -> Forall (tensor_ok bit N C H W) h ->
  (forall n k y x, (n < N)%nat -> (k < C)%nat -> (y < H)%nat -> (x < W)%nat -> dirvec_ok 30 (ext_dirvec extx (dimx n k y x)) /\
     lane4 h n k y x = bsgen_stream (bingen m w (entry4 0%Q img n k y x)) (rng_seq extx KSobol w (dimx n k y x)) 0 (length h)) ->
  exists os, outputs (run_r (fconv_step c a) (fconv_init c) (no_args4 h)) = Some os /\ length os = length h /\ Forall (tensor_ok bit N no ho wo) os /\
  forall n o y x, (n < N)%nat -> (o < no)%nat -> (y < ho)%nat -> (x < wo)%nat ->
    progresses m (grid_step m w) (product_slack m w + 1)
      ((conv_entry kernel stride dil (p, p) C H W img we n o y x + bias_entry (if bias then be else None) o) /
       inject_Z (Z.of_nat (taps C kernel) + b2z bias)) (lane4 os n o y x).
Proof.
  intros ext C no kernel stride p dil groups bias pm we be winit w mn rn dimr depth c a m E Hm Hr Hw HV Hwe Hbe Hd
    N H W ho wo h extx dimx img Hsz HN Himg Hh Hx.
  destruct (fconv_parts _ _ _ _ _ _ _ _ _ _ _ _ _ _ _ _ _ _ _ _ _ E Hm Hr) as (-> & Sh & Em & Et & Er & Ei & Eo & EC & EK & ES & ED & EP & Ew & Hbl & Eb). clear E.
  destruct Hsz as (Z1 & Z2 & Z3 & Z4 & Z5 & Z6 & Z7 & Z8 & Z9 & Z10).
  assert (GG : conv_geom c p H W ho wo).
  { unfold conv_geom. rewrite EC, EK, ES, ED, EP, Ei. auto 20. }
  assert (EE : flin_entry (cv_pc c) = Z.of_nat (taps C kernel) + b2z bias).
  { unfold flin_entry, taps. rewrite Ei, Eb. destruct bias; [|reflexivity]. destruct (Hbl eq_refl) as (b & -> & _). reflexivity. }
  assert (E0 : 0 < flin_entry (cv_pc c)) by (rewrite EE; unfold taps; destruct bias; cbn [b2z]; nia).
  rewrite <- EE in Hd.
  pose proof (rng_sobol_perm ext w dimr (proj2 Hw) HV) as HP.
  assert (RO : rng_ok (cv_pc c)).
  { unfold rng_ok. rewrite Er, (Permutation_length HP), len_zrange. assert (2 ^ w <> 0)%nat by (apply Nat.pow_nonzero; lia). lia. }
  rewrite <- EC in Hh.
  pose proof (fun h' Hh' => fconv_rate c depth p N H W ho wo h' GG RO Et HN E0 Hd Hh') as GO.
  destruct (GO h Hh) as (os & R & Lo & _). exists os. split; [exact R|]. split; [exact Lo|].
  pose proof (conv_bits c depth p N H W ho wo h GG RO Et HN E0 Hd Hh os R) as Fo. split; [rewrite Eo in Fo; exact Fo|].
  intros n o y x Hn Ho Hy Hxx t Ht. unfold lane4 in Ht at 1. rewrite map_length, Lo in Ht. rewrite <- lane4_firstn.
  pose proof (forall_firstn _ t _ Hh) as Hht.
  destruct (GO (firstn t h) Hht) as (os' & R' & Lo' & Ones).
  pose proof (run_r_firstn _ t _ _ _ R) as R2. unfold no_args4 in R2, R'. rewrite firstn_map in R2. rewrite R2 in R'. injection R' as <-.
  specialize (Ones n o y x Hn ltac:(rewrite Eo; exact Ho) Hy Hxx).
  assert (Lh : length (firstn t h) = t) by (rewrite firstn_length; lia). rewrite Lh in Ones, Lo'.
  rewrite Em, Er, EC, EK, Eb in Ones.
  assert (Bb : bias = true -> src_ok m (bias_entry be o)).
  { intros Ebias. destruct (Hbl Ebias) as (bl & -> & Lb). cbn [bias_entry src_opt] in *. rewrite Forall_forall in Hbe. apply Hbe. apply nth_In. lia. }
  set (kh := fst kernel) in *. set (kw := snd kernel) in *.
  set (yy := fun i : nat => Z.of_nat (y * fst stride + i * fst dil) - Z.of_nat p).
  set (xx := fun j : nat => Z.of_nat (x * snd stride + j * snd dil) - Z.of_nat p).
  set (ins := fun a : nat * nat * nat => (0 <=? yy (snd (fst a))) && (yy (snd (fst a)) <? Z.of_nat H) && (0 <=? xx (snd a)) && (xx (snd a) <? Z.of_nat W)).
  set (pix := fun a : nat * nat * nat => entry4 0%Q img n (fst (fst a)) (Z.to_nat (yy (snd (fst a)))) (Z.to_nat (xx (snd a)))).
  pose proof (lane_near m w ext dimr (triples C kh kw) bias
                (fun a => tap_stream c p H W (firstn t h) n y x (fst (fst a)) (snd (fst a)) (snd a))
                (fun a => if ins a then inject_Z (bingen m w (pix a)) / inject_Z (p2 w) else match m with Unipolar => 0 | Bipolar => 1 # 2 end)%Q
                (fun a => under stride dil (p, p) H W img n y x (fst (fst a)) (snd (fst a)) (snd a))
                (fun a => entry4 0%Q we o (fst (fst a)) (snd (fst a)) (snd a))
                (bias_entry be o) t (lane4 (firstn t os) n o y x) Hw HV) as G.
  rewrite triples_len in G. fold (taps C kernel) in G. unfold kh, kw in G. change (C * (fst kernel * snd kernel))%nat with (taps C kernel) in G. fold kh kw in G.
  assert (G2 : (Qabs (value m (lane4 (firstn t os) n o y x) -
     (qsum (map (fun a => under stride dil (p, p) H W img n y x (fst (fst a)) (snd (fst a)) (snd a) * entry4 0 we o (fst (fst a)) (snd (fst a)) (snd a)) (triples C kh kw))
      + (if bias then bias_entry be o else 0)) / inject_Z (Z.of_nat (taps C kernel) + b2z bias))
     <= grid_step m w + span m * (product_slack m w + 1) / inject_Z (Z.of_nat t))%Q).
  { apply G.
    - intros Enil. pose proof (triples_len C kh kw) as TL. rewrite Enil in TL. unfold zlen in TL. cbn in TL. assert (1 <= C * (kh * kw))%nat by nia. lia.
    - lia.
    - apply Forall_forall. intros z Hz. unfold lane4 in Hz. apply in_map_iff in Hz. destruct Hz as (tz & <- & Htz).
      pose proof (forall_firstn _ t _ Fo) as Fot. rewrite Forall_forall in Fot.
      apply (entry4_in bit 0 N (pc_out (cv_pc c)) ho wo); [apply Fot; exact Htz|lia..].
    - unfold lane4, zlen. rewrite map_length, Lo'. reflexivity.
    - intros [[k i] j] Ha. apply triples_in in Ha. destruct Ha as (Hk & Hi & Hj). cbn [fst snd].
      split; [unfold tap_stream, zlen; rewrite map_length, seq_length, Lh; reflexivity|].
      assert (Hy' : src_ok m (entry4 0%Q we o k i j)) by (apply (entry4_in (src_ok m) 0%Q no C kh kw); assumption).
      unfold under. cbn [fst snd]. fold (yy i) (xx j). unfold surrounded.
      destruct (ins (k, i, j)) eqn:Ins.
      + unfold ins in Ins. cbn [fst snd] in Ins. rewrite Ins. unfold pix. cbn [fst snd].
        destruct (Hx n k (Z.to_nat (yy i)) (Z.to_nat (xx j)) Hn Hk ltac:(lia) ltac:(lia)) as [V L].
        assert (Hs : src_ok m (entry4 0%Q img n k (Z.to_nat (yy i)) (Z.to_nat (xx j)))) by (apply (entry4_in (src_ok m) 0%Q N C H W); [exact Himg|lia..]).
        split; [|split; [|split; [|exact Hy']]].
        * pose proof (inside_stream c p N H W (firstn t h) n y x k i j) as IS. cbv zeta in IS. rewrite ES, ED in IS. fold (yy i) (xx j) in IS.
          rewrite IS by (try assumption; try (rewrite EC; assumption); lia).
          rewrite lane4_firstn, L, bsgen_firstn by lia. apply bsgen_near; [lia|exact V|exact (proj1 (bingen_all m w) _ Hs)].
        * rewrite of_prob_grid. apply grid_in. exact Hs.
        * rewrite of_prob_grid. apply grid_err.
      + unfold ins in Ins. cbn [fst snd] in Ins. rewrite Ins.
        pose proof (border_stream c p H W (firstn t h) n y x k i j) as BS. cbv zeta in BS. rewrite ES, ED in BS. fold (yy i) (xx j) in BS.
        rewrite BS by lia. rewrite Em, Lh.
        split; [apply border_near; lia|]. pose proof (grid_step_pos m w) as SP.
        assert (OP : (of_prob m (match m with Unipolar => 0 | Bipolar => 1 # 2 end) == 0)%Q) by (destruct m; reflexivity).
        split; [rewrite OP; apply qabs_le; lra|]. split; [|exact Hy'].
        rewrite OP. apply qabs_le. assert (0 < grid_step m w / 2)%Q by (apply Qlt_shift_div_l; lra). split; lra.
    - exact Bb.
    - rewrite Ones. f_equal; [|destruct bias; [|reflexivity]; destruct (Hbl eq_refl) as (bl & -> & _); reflexivity].
      f_equal.
      + rewrite <- triples_zsum. f_equal. apply map_ext_in. intros [[k i] j] Ha. apply triples_in in Ha. destruct Ha as (Hk & Hi & Hj). cbn [fst snd].
        rewrite (Ew o k i j Ho Hk Hi Hj). reflexivity.
      + destruct bias; [|reflexivity]. destruct (Hbl eq_refl) as (bl & -> & Lb). cbn [option_map bias_entry].
        rewrite nth_indep with (d' := bingen m w 0%Q) by (rewrite map_length; lia). rewrite map_nth. reflexivity. }
  assert (EQ : (qsum (map (fun a => under stride dil (p, p) H W img n y x (fst (fst a)) (snd (fst a)) (snd a) * entry4 0 we o (fst (fst a)) (snd (fst a)) (snd a)) (triples C kh kw)) ==
                conv_entry kernel stride dil (p, p) C H W img we n o y x)%Q).
  { unfold conv_entry. fold kh kw. rewrite <- triples_qsum. reflexivity. }
  rewrite EQ in G2. destruct bias; exact G2.
Qed.

(** ** Settling of a layer *)
Lemma mean_in {A} (l : list A) (bias : bool) (f : A -> Q) (b : Q) : l <> [] -> (forall i, In i l -> (Qabs (f i) <= 1)%Q) -> (bias = true -> (Qabs b <= 1)%Q) ->
  (Qabs ((qsum (map f l) + (if bias then b else 0)) / inject_Z (zlen l + b2z bias)) <= 1)%Q.
Proof.
  intros Hl Hf Hb. rewrite <- (terms_qsum l bias f b), <- terms_len.
  assert (L : 0 < zlen (terms l bias)) by (rewrite terms_len; unfold zlen; destruct l; [contradiction|cbn [length]]; destruct bias; cbn [b2z]; lia).
  apply inj_pos in L. set (E := inject_Z (zlen (terms l bias))) in *. set (F := fun a : option A => match a with Some i => f i | None => b end).
  pose proof (sum_err (terms l bias) F (fun _ => 0%Q) 1) as S. fold E in S.
  assert (Z0 : (qsum (map (fun _ : option A => 0%Q) (terms l bias)) == 0)%Q).
  { clear. induction (terms l bias) as [|a r IH]; [reflexivity|]. cbn [map qsum]. rewrite IH. reflexivity. }
  rewrite Z0 in S. assert (S2 : (Qabs (qsum (map F (terms l bias)) - 0) <= E * 1)%Q).
  { apply S. intros a Ha. apply terms_in in Ha. unfold Qminus. change (- 0)%Q with 0%Q. rewrite Qplus_0_r. destruct a; cbn [F]; auto. }
  change (fun a : option A => match a with Some i => f i | None => b end) with F.
  apply qabs_le in S2. apply qabs_le. set (X := qsum (map F (terms l bias))) in *.
  split; [apply Qle_shift_div_l|apply Qle_shift_div_r]; lra.
Qed.
Lemma prod_in m x y : src_ok m x -> src_ok m y -> (Qabs (x * y) <= 1)%Q.
Proof.
  intros Hx Hy. apply src_abs in Hx. apply src_abs in Hy. rewrite Qabs_Qmult. pose proof (Qabs_nonneg x). pose proof (Qabs_nonneg y). nra.
Qed.
Lemma clamp_id v : (Qabs v <= 1)%Q -> (qclamp (-1) 1 (v / 1) == v)%Q.
Proof.
  intros H. apply qabs_le in H. assert (E : (v / 1 == v)%Q) by field. rewrite (qclamp_id (-1) 1 (v / 1)); lra.
Qed.

Theorem linear_settles : forall ext ni no bias we be winit w m_name r_name dimr depth c a m,
  flin_new ext ni no bias (Some we) be winit w m_name r_name dimr None depth = Ok (c, a) ->
  names_mode m_name m -> named r_name ["sobol"%string; "rc"%string] -> (1 <= ni)%nat -> (1 <= w <= 30)%nat -> dirvec_ok 30 (ext_dirvec ext dimr) ->
  Forall (Forall (src_ok m)) we -> src_opt m be -> (inject_Z (2 * (Z.of_nat ni + b2z bias) - 1) <= Qpower 2 (depth - 2))%Q ->
  forall B h extx dimx x, (1 <= B)%nat -> Forall (batch_ok B ni) h -> h <> [] ->
  (forall b i, (b < B)%nat -> (i < ni)%nat -> dirvec_ok 30 (ext_dirvec extx (dimx b i)) /\ src_ok m (x b i) /\
     lane h b i = bsgen_stream (bingen m w (x b i)) (rng_seq extx KSobol w (dimx b i)) 0 (length h)) ->
  exists os, outputs (run_r (flin_step c a) (flin_init c) (no_args h)) = Some os /\
  forall b o thr, (b < B)%nat -> (o < no)%nat -> (grid_step m w < thr)%Q ->
    let exact := ((dotq ni (x b) (qentry we o) + bias_entry (if bias then be else None) o) / inject_Z (Z.of_nat ni + b2z bias))%Q in
    (inject_Z (sb_cts (stab_monitors m 1 exact thr stab_init (lane os b o))) <= span m * (product_slack m w + 1) / (thr - grid_step m w))%Q.
Proof.
  intros ext ni no bias we be winit w mn rn dimr depth c a m E Hm Hr Hni Hw HV Hwe Hbe Hd B h extx dimx x HB Hh Hne Hx.
  destruct (linear_progress _ _ _ _ _ _ _ _ _ _ _ _ _ _ _ E Hm Hr Hni Hw HV Hwe Hbe Hd B h extx dimx x HB Hh Hx) as (os & R & Lo & Fo & P).
  exists os. split; [exact R|]. intros b o thr Hb Ho Ht exact.
  destruct (lin_parts _ _ _ _ _ _ _ _ _ _ _ _ _ _ _ E Hm Hr) as (_ & _ & _ & _ & _ & _ & _ & _ & S2 & Hbl & _). pose proof (shape2_spec _ _ _ S2) as [W1 W2].
  apply (settles m (grid_step m w) (product_slack m w + 1) exact); try exact Ht.
  - apply (lane_bits B no); assumption.
  - intros En. apply (f_equal (@length Z)) in En. unfold lane in En. rewrite map_length, Lo in En. destruct h; [contradiction|discriminate].
  - exact (P b o Hb Ho).
  - assert (inject_Z 0 <= product_slack m w)%Q by (unfold product_slack; rewrite <- Zle_Qle; destruct m; lia). change (inject_Z 0) with 0%Q in *. lra.
  - apply clamp_id. unfold exact, dotq.
    pose proof (mean_in (seq 0 ni) bias (fun i => x b i * qentry we o i)%Q (bias_entry be o)) as M.
    assert (Zs : zlen (seq 0 ni) = Z.of_nat ni) by (unfold zlen; rewrite seq_length; reflexivity). rewrite Zs in M.
    assert (M2 : (Qabs ((qsum (map (fun i => x b i * qentry we o i) (seq 0 ni)) + (if bias then bias_entry be o else 0)) / inject_Z (Z.of_nat ni + b2z bias)) <= 1)%Q).
    { apply M.
      - destruct ni; [lia|discriminate].
      - intros i Hi. apply in_seq in Hi. destruct (Hx b i Hb ltac:(lia)) as (_ & Hs & _). apply (prod_in m); [exact Hs|].
        unfold qentry. rewrite Forall_forall in W2. specialize (W2 (nth o we []) ltac:(apply nth_In; lia)).
        rewrite Forall_forall in Hwe. specialize (Hwe (nth o we []) ltac:(apply nth_In; lia)). rewrite Forall_forall in Hwe. apply Hwe. apply nth_In. lia.
      - intros Eb. destruct (Hbl Eb) as (bl & -> & Lb). apply (src_abs m). cbn [bias_entry src_opt] in *. rewrite Forall_forall in Hbe. apply Hbe, nth_In. lia. }
    destruct bias; exact M2.
Qed.

(** Without low discrepancy there is nothing to gain from stopping early: a temporal coded stream starts with all its ones. *)
Theorem race_early : forall m ext w d B t, B <= p2 w -> (1 <= t)%nat -> Z.of_nat t <= B ->
  (value m (bsgen_stream B (rng_seq ext KAsc w d) 0 t) == 1)%Q.
Proof.
  intros m ext w d B t HB Ht HtB. set (xs := bsgen_stream _ _ 0 t).
  assert (E : xs = repeat 1 t).
  { unfold xs, bsgen_stream. apply map_const_seq. intros k Hk. rewrite rng_asc, Z.add_0_l.
    rewrite bsgen_bit_cyc by (rewrite len_zrange; assert (2 ^ w <> 0)%nat by (apply Nat.pow_nonzero; lia); lia).
    pose proof (p2_nat w) as P. unfold cyc. rewrite len_zrange, Nat.mod_small by lia. unfold zrange.
    rewrite nth_indep with (d' := Z.of_nat 0) by (rewrite map_length, seq_length; lia). rewrite map_nth, seq_nth by lia.
    assert (L : (Z.of_nat (0 + k) <? B) = true) by lia. rewrite L. reflexivity. }
  assert (O : ones xs = Z.of_nat t /\ zeros xs = 0 /\ zlen xs = Z.of_nat t).
  { rewrite E. clear. split; [|split; [|unfold zlen; rewrite repeat_length; reflexivity]].
    - induction t as [|t IH]; [reflexivity|]. change (ones (repeat 1 (Datatypes.S t))) with (1 + ones (repeat 1 t)). lia.
    - induction t as [|t IH]; [reflexivity|]. change (zeros (repeat 1 (Datatypes.S t))) with (0 + zeros (repeat 1 t)). lia. }
  destruct O as (O1 & O2 & O3). unfold value, walk. rewrite O1, O2, O3. assert (P : (0 < inject_Z (Z.of_nat t))%Q) by (apply inj_pos; lia).
  rewrite Z.sub_0_r. destruct m; field; lra.
Qed.
