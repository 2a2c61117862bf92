(** Proofs for C77. *)
From Coq Require Import String Lqa.
Require Import Verif.BaseLemmas Verif.SobolProof Verif.GenModel Verif.GenProof Verif.KernelModel Verif.KernelProof
  Verif.LinearModel Verif.LinearProof Verif.NameSpec Verif.NameProof Verif.NewSpec Verif.ProgSpec Verif.ProgProof Verif.NetSpec.
Open Scope Z_scope.

(** ** Windows of a sequence *)
Definition times (used : bool) : Z := if used then 2 else 1.
Lemma below_window ext w d B n k (used : bool) : (w <= 30)%nat -> dirvec_ok 30 (ext_dirvec ext d) -> 0 <= B <= p2 w ->
  (used = false -> n = O) ->
  Z.abs ((below (rng_seq ext KSobol w d) B (n + k) - below (rng_seq ext KSobol w d) B n) * p2 w - Z.of_nat k * B) <= times used * Z.of_nat w * p2 w.
Proof.
  intros Hw HV HB Hu. pose proof (below_sobol ext w d B (n + k) Hw HV HB) as D1. pose proof (below_sobol ext w d B n Hw HV HB) as D0.
  pose proof (p2_pos w). destruct used; cbn [times]; [lia|]. rewrite (Hu eq_refl) in *. change (below (rng_seq ext KSobol w d) B 0) with 0 in *. cbn [Nat.add] in *. lia.
Qed.
Lemma bsgen_ones ext w d B n : (w <= 30)%nat -> dirvec_ok 30 (ext_dirvec ext d) ->
  ones (bsgen_stream B (rng_seq ext KSobol w d) 0 n) = below (rng_seq ext KSobol w d) B n.
Proof.
  intros Hw HV. pose proof (rng_sobol_perm ext w d Hw HV) as HP.
  assert (L : (0 < length (rng_seq ext KSobol w d))%nat).
  { rewrite (Permutation_length HP), len_zrange. assert (2 ^ w <> 0)%nat by (apply Nat.pow_nonzero; lia). lia. }
  rewrite bsgen_stream0 by exact L. unfold below. set (f := fun k => cyc (rng_seq ext KSobol w d) k <? B). clear.
  unfold ones. induction (seq 0 n) as [|k l IH]; [reflexivity|]. cbn [map countb]. rewrite IH.
  change (cyc (rng_seq ext KSobol w d) k <? B) with (f k). destruct (f k); reflexivity.
Qed.
Lemma in_grid w k x T B : Z.abs (x * p2 w - T * B) <= k * p2 w ->
  (Qabs (inject_Z x - inject_Z T * (inject_Z B / inject_Z (p2 w))) <= inject_Z k)%Q.
Proof.
  intros H. pose proof (p2_pos w) as P. pose proof (inj_pos _ P) as PQ. apply qabs_le.
  set (M := inject_Z (p2 w)) in *.
  assert (L : (- (inject_Z k * M) <= inject_Z x * M - inject_Z T * inject_Z B <= inject_Z k * M)%Q).
  { unfold M. rewrite <- !inject_Z_mult, <- inject_Z_opp. unfold Qminus. rewrite <- inject_Z_opp, <- inject_Z_plus. rewrite <- !Zle_Qle. lia. }
  assert (E : ((inject_Z x - inject_Z T * (inject_Z B / M)) * M == inject_Z x * M - inject_Z T * inject_Z B)%Q) by (field; lra).
  split; apply (Qmult_le_r _ _ M PQ); rewrite E; lra.
Qed.

Lemma mul_window m ext w d B e u pre xs (used : bool) : (w <= 30)%nat -> dirvec_ok 30 (ext_dirvec ext d) -> 0 <= B <= p2 w ->
  bits pre -> (used = false -> pre = []) -> near e u xs ->
  let f := fun l => ones (outs (fsumul_static_step m B (rng_seq ext KSobol w d)) fsumul_static_init l) in
  (Qabs (inject_Z (f (pre ++ xs) - f pre) - inject_Z (zlen xs) * prod_prob m u (inject_Z B / inject_Z (p2 w))) <= layer_slack m w used + e)%Q.
Proof.
  intros Hw HV HB Hp Hu [Hb N] f. set (rng := rng_seq ext KSobol w d).
  pose proof (rng_sobol_perm ext w d Hw HV) as HP.
  assert (L : (0 < length rng)%nat).
  { unfold rng. rewrite (Permutation_length HP), len_zrange. assert (2 ^ w <> 0)%nat by (apply Nat.pow_nonzero; lia). lia. }
  assert (Hpx : bits (pre ++ xs)) by (apply Forall_app; split; assumption).
  destruct (mul_static_count m B rng (pre ++ xs) L Hpx) as [_ F1]. destruct (mul_static_count m B rng pre L Hp) as [_ F0].
  fold rng in f. change (ones (outs (fsumul_static_step m B rng) fsumul_static_init (pre ++ xs))) with (f (pre ++ xs)) in F1.
  change (ones (outs (fsumul_static_step m B rng) fsumul_static_init pre)) with (f pre) in F0.
  rewrite ones_app, zeros_app in F1.
  assert (Z1 : used = false -> Z.to_nat (ones pre) = O) by (intros X; rewrite (Hu X); reflexivity).
  assert (Z0 : used = false -> Z.to_nat (zeros pre) = O) by (intros X; rewrite (Hu X); reflexivity).
  pose proof (below_window ext w d B (Z.to_nat (ones pre)) (Z.to_nat (ones xs)) used Hw HV HB Z1) as W1.
  pose proof (below_window ext w d B (Z.to_nat (zeros pre)) (Z.to_nat (zeros xs)) used Hw HV HB Z0) as W0. fold rng in W1, W0.
  rewrite <- Z2Nat.inj_add in W1, W0 by (apply ones_nonneg || apply zeros_nonneg).
  rewrite Z2Nat.id in W1 by apply ones_nonneg. rewrite Z2Nat.id in W0 by apply zeros_nonneg.
  pose proof (p2_pos w) as P. pose proof (inj_pos _ P) as PQ. pose proof (ones_zeros xs Hb) as OZ.
  set (k := match m with Unipolar => 1 | Bipolar => 2 end * Z.of_nat w).
  assert (D : match m with Unipolar => Z.abs ((f (pre ++ xs) - f pre) * p2 w - ones xs * B)
              | Bipolar => Z.abs ((f (pre ++ xs) - f pre) * p2 w - (ones xs * B + zeros xs * (p2 w - B))) end <= times used * k * p2 w).
  { rewrite F1, F0. unfold k. destruct m; [lia|]. lia. }
  clearbody f. set (g := f (pre ++ xs) - f pre) in *.
  assert (Sl : (layer_slack m w used == inject_Z (times used * k))%Q) by reflexivity. rewrite Sl.
  apply qabs_le in N. apply qabs_le. set (M := inject_Z (p2 w)) in *. set (T := inject_Z (zlen xs)) in *.
  set (v := (inject_Z B / M)%Q).
  assert (V : (v * M == inject_Z B)%Q) by (unfold v; field; lra).
  assert (V0 : (0 <= v)%Q) by (apply (Qmult_le_r _ _ M PQ); rewrite V, Qmult_0_l; change 0%Q with (inject_Z 0); rewrite <- Zle_Qle; lia).
  assert (V1 : (v <= 1)%Q) by (apply (Qmult_le_r _ _ M PQ); rewrite V, Qmult_1_l; unfold M; rewrite <- Zle_Qle; lia).
  set (n1 := inject_Z (ones xs)) in *. set (p := inject_Z g).
  assert (K : (- (inject_Z (times used * k)) <= p - match m with Unipolar => n1 * v | Bipolar => n1 * v + (T - n1) * (1 - v) end
               <= inject_Z (times used * k))%Q).
  { set (kk := times used * k) in *.
    assert (Q1 : (- (inject_Z kk * M) <= p * M - match m with Unipolar => n1 * inject_Z B | Bipolar => n1 * inject_Z B + (T - n1) * (M - inject_Z B) end <= inject_Z kk * M)%Q).
    { unfold p, n1, T, M, Qminus. destruct m.
      - rewrite <- !inject_Z_mult, <- !inject_Z_opp, <- inject_Z_plus. rewrite <- !Zle_Qle. lia.
      - replace (zeros xs) with (zlen xs - ones xs) in D by lia.
        rewrite <- !inject_Z_opp, <- !inject_Z_plus, <- !inject_Z_mult, <- !inject_Z_opp, <- !inject_Z_plus, <- ?inject_Z_opp, <- ?inject_Z_plus.
        rewrite <- !Zle_Qle. lia. }
    destruct Q1 as [A1 A2]. split; apply (Qmult_le_r _ _ M PQ).
    - eapply Qle_trans; [|eapply Qle_trans; [exact A1|]]; [apply Qle_lteq; right; ring|].
      apply Qle_lteq; right. destruct m; rewrite <- V; ring.
    - eapply Qle_trans; [|eapply Qle_trans; [exact A2|]]; [|apply Qle_lteq; right; ring].
      apply Qle_lteq; right. destruct m; rewrite <- V; ring. }
  set (kq := inject_Z _) in *. clearbody kq v T n1 p M.
  unfold prod_prob. destruct m.
  - assert (E : (p - T * (u * v) == (p - n1 * v) + v * (n1 - T * u))%Q) by ring. rewrite E.
    assert (- e <= v * (n1 - T * u) <= e)%Q by (split; nra). lra.
  - assert (E : (p - T * (u * v + (1 - u) * (1 - v)) == (p - (n1 * v + (T - n1) * (1 - v))) + (2 * v - 1) * (n1 - T * u))%Q) by ring. rewrite E.
    assert (- e <= (2 * v - 1) * (n1 - T * u) <= e)%Q by (split; nra). lra.
Qed.

(** ** A window of an adder *)
Theorem adder_window {A} m e q (l : list A) (S0 S : A -> Z) (P R : A -> Q) os : l <> [] -> bits os -> os <> [] ->
  ones os = zsum (map S l) / zlen l - zsum (map S0 l) / zlen l ->
  (forall a, In a l -> (Qabs (inject_Z (S a - S0 a) - inject_Z (zlen os) * P a) <= e)%Q) ->
  (forall a, In a l -> (Qabs (of_prob m (P a) - R a) <= q)%Q) ->
  (Qabs (value m os - qsum (map R l) / inject_Z (zlen l)) <= q + span m * (e + 1) / inject_Z (zlen os))%Q.
Proof.
  intros Hl Hb Hne Ho HS HR.
  assert (L : 0 < zlen l) by (unfold zlen; destruct l; [contradiction|cbn [length]; lia]). pose proof (inj_pos _ L) as LQ.
  set (T := inject_Z (zlen os)) in *. set (E := inject_Z (zlen l)) in *.
  pose proof (sum_err l (fun a => inject_Z (S a - S0 a)) (fun a => T * P a)%Q e HS) as A1. rewrite qsum_scale, qsum_inject in A1. fold E in A1.
  assert (DS : zsum (map (fun a => S a - S0 a) l) = zsum (map S l) - zsum (map S0 l)).
  { clear. induction l as [|a l IH]; [reflexivity|]. cbn [map zsum fold_right] in *. lia. }
  rewrite DS in A1.
  pose proof (sum_err l (fun a => of_prob m (P a)) R q HR) as A2. fold E in A2.
  assert (N : near (e + 1) (qsum (map P l) / E) os).
  { split; [exact Hb|]. fold T. rewrite Ho. apply qabs_le in A1. apply qabs_le.
    set (X1 := zsum (map S l)) in *. set (X0 := zsum (map S0 l)) in *.
    pose proof (Z.div_mod X1 (zlen l) ltac:(lia)) as DM1. pose proof (Z.mod_pos_bound X1 (zlen l) L) as MB1.
    pose proof (Z.div_mod X0 (zlen l) ltac:(lia)) as DM0. pose proof (Z.mod_pos_bound X0 (zlen l) L) as MB0.
    set (Z0 := X1 / zlen l - X0 / zlen l) in *. set (Z1 := X1 mod zlen l - X0 mod zlen l) in *.
    assert (DZ : X1 - X0 = zlen l * Z0 + Z1) by (unfold Z0, Z1; lia).
    assert (DQ : (inject_Z (X1 - X0) == E * inject_Z Z0 + inject_Z Z1)%Q).
    { rewrite DZ. rewrite inject_Z_plus, inject_Z_mult. reflexivity. }
    assert (B0 : (- E <= inject_Z Z1)%Q) by (unfold E; rewrite <- inject_Z_opp, <- Zle_Qle; unfold Z1; lia).
    assert (B1 : (inject_Z Z1 <= E)%Q) by (unfold E; rewrite <- Zle_Qle; unfold Z1; lia).
    rewrite DQ in A1. set (z0 := inject_Z Z0) in *. set (z1 := inject_Z Z1) in *. set (X := qsum (map P l)) in *.
    assert (G : (E * (z0 - T * (X / E)) == (E * z0 - T * X))%Q) by (field; lra).
    split; apply (Qmult_le_l _ _ E LQ); rewrite G; lra. }
  pose proof (near_value m (e + 1) _ os N Hne) as V. fold T in V.
  pose proof (qsum_of_prob m l P Hl) as QP. fold E in QP. rewrite QP in V.
  assert (V2 : (Qabs (qsum (map (fun a => of_prob m (P a)) l) / E - qsum (map R l) / E) <= q)%Q).
  { apply qabs_le in A2. apply qabs_le. set (X := qsum (map (fun a => of_prob m (P a)) l)) in *. set (Y := qsum (map R l)) in *.
    assert (G : (E * (X / E - Y / E) == X - Y)%Q) by (field; lra). split; apply (Qmult_le_l _ _ E LQ); rewrite G; lra. }
  apply qabs_le in V. apply qabs_le in V2. apply qabs_le. split; lra.
Qed.

(** ** From values back to counts *)
Definition to_prob (m : mode) (x : Q) : Q := match m with Unipolar => x | Bipolar => (x + 1) * (1 # 2) end.
Lemma of_to m x : (of_prob m (to_prob m x) == x)%Q.
Proof. destruct m; unfold of_prob, to_prob; [reflexivity|ring]. Qed.
Lemma span_pos m : (0 < span m)%Q.
Proof. destruct m; cbn; lra. Qed.
Lemma value_near m x e xs : bits xs -> xs <> [] -> (Qabs (value m xs - x) <= e)%Q ->
  near (inject_Z (zlen xs) * (e / span m)) (to_prob m x) xs.
Proof.
  intros Hb Hne H. split; [exact Hb|]. assert (P : 0 < zlen xs) by (unfold zlen; destruct xs; [contradiction|cbn [length]; lia]).
  apply inj_pos in P. apply qabs_le in H. apply qabs_le. set (T := inject_Z (zlen xs)) in *. pose proof (span_pos m) as SP.
  assert (V : (inject_Z (ones xs) - T * to_prob m x == T * ((value m xs - x) / span m))%Q).
  { unfold value, to_prob, span. fold T. destruct m.
    - field. lra.
    - rewrite (walk_ones xs Hb). unfold Z.sub. rewrite inject_Z_plus, inject_Z_opp, inject_Z_mult. fold T. change (inject_Z 2) with 2%Q. field. lra. }
  rewrite V. set (D := (value m xs - x)%Q) in *.
  assert (D1 : (D / span m <= e / span m)%Q) by (apply Qle_shift_div_l; [exact SP|]; assert (D / span m * span m == D)%Q as -> by (field; lra); lra).
  assert (D2 : (- (e / span m) <= D / span m)%Q).
  { apply Qle_shift_div_l; [exact SP|]. assert (- (e / span m) * span m == - e)%Q as -> by (field; lra). lra. }
  set (y := (D / span m)%Q) in *. set (z := (e / span m)%Q) in *. clearbody y z. split; nra.
Qed.

(** One output lane of a layer, from some point on: [pre] what its inputs carried before, [xs] since. *)
Lemma lane_window {A} m w ext d (l : list A) (bias used : bool) (pre xs : A -> list Z) (x y : A -> Q) (b q K : Q) T0 T os :
  (1 <= w <= 30)%nat -> dirvec_ok 30 (ext_dirvec ext d) -> l <> [] -> (1 <= T)%nat -> bits os -> zlen os = Z.of_nat T ->
  (used = false -> T0 = O) -> (0 <= q)%Q -> (0 <= K)%Q ->
  (forall i, In i l -> bits (pre i) /\ length (pre i) = T0 /\ bits (xs i) /\ length (xs i) = T /\
     (Qabs (value m (xs i) - x i) <= q + span m * K / inject_Z (Z.of_nat T))%Q /\ (Qabs (x i) <= 1)%Q /\ src_ok m (y i)) ->
  (bias = true -> src_ok m b) ->
  (let f := fun i l => ones (outs (fsumul_static_step m (bingen m w (y i)) (rng_seq ext KSobol w d)) fsumul_static_init l) in
   let g := fun n => if bias then ones (bsgen_stream (bingen m w b) (rng_seq ext KSobol w d) 0 n) else 0 in
   ones os = (zsum (map (fun i => f i (pre i ++ xs i)) l) + g (T0 + T)%nat) / (zlen l + b2z bias)
             - (zsum (map (fun i => f i (pre i)) l) + g T0) / (zlen l + b2z bias)) ->
  (Qabs (value m os - (qsum (map (fun i => x i * grid_value m w (bingen m w (y i))) l) + (if bias then grid_value m w (bingen m w b) else 0)) / inject_Z (zlen l + b2z bias))
   <= q + span m * (K + layer_slack m w used + 1) / inject_Z (Z.of_nat T))%Q.
Proof.
  intros Hw HV Hl HT Hb Lo Hu Hq HK Hx Hbias Ho. cbv zeta beta in Ho.
  rewrite <- !(terms_zsum l bias), <- terms_len in Ho.
  set (s1 := ones (bsgen_stream (bingen m w b) (rng_seq ext KSobol w d) 0 (T0 + T))) in *.
  set (s0 := ones (bsgen_stream (bingen m w b) (rng_seq ext KSobol w d) 0 T0)) in *.
  assert (Hne : os <> []) by (intros E; rewrite E in Lo; unfold zlen in Lo; cbn in Lo; lia).
  assert (Hln : terms l bias <> []) by (unfold terms; destruct l; [contradiction|discriminate]).
  assert (TQ : (0 < inject_Z (Z.of_nat T))%Q) by (apply inj_pos; lia).
  pose proof (span_pos m) as SP.
  set (tq := inject_Z (Z.of_nat T)) in *.
  set (P := fun a : option A => match a with Some i => prod_prob m (to_prob m (x i)) (inject_Z (bingen m w (y i)) / inject_Z (p2 w))
                                | None => inject_Z (bingen m w b) / inject_Z (p2 w) end%Q).
  set (R := fun a : option A => match a with Some i => x i * grid_value m w (bingen m w (y i)) | None => grid_value m w (bingen m w b) end%Q).
  set (e := (layer_slack m w used + tq * ((q + span m * K / tq) / span m))%Q).
  assert (Ee : (e == layer_slack m w used + (K + tq * q / span m))%Q) by (unfold e; field; lra).
  assert (Q0 : (0 <= tq * q / span m)%Q) by (apply Qle_shift_div_l; [exact SP|]; nra).
  pose proof (adder_window m e 0 (terms l bias) _ _ P R os Hln Hb Hne Ho) as G.
  rewrite Lo, terms_len in G. fold tq in G. unfold R in G. rewrite terms_qsum in G.
  assert (G2 : (Qabs (value m os - (qsum (map (fun i => x i * grid_value m w (bingen m w (y i))) l) + (if bias then grid_value m w (bingen m w b) else 0)) / inject_Z (zlen l + b2z bias)) <= 0 + span m * (e + 1) / tq)%Q).
  { apply G.
    - intros a Ha. apply terms_in in Ha. destruct a as [i|]; unfold P.
      + destruct (Hx i Ha) as (Hp & Lp & Hbx & Lx & D & _ & Hy).
        assert (Nx : xs i <> []) by (intros E; rewrite E in Lx; cbn in Lx; lia).
        assert (Zx : zlen (xs i) = Z.of_nat T) by (unfold zlen; rewrite Lx; reflexivity).
        pose proof (value_near m (x i) _ (xs i) Hbx Nx D) as N. rewrite Zx in N. fold tq in N.
        assert (Hpn : used = false -> pre i = []) by (intros X; specialize (Hu X); destruct (pre i); [reflexivity|cbn in Lp; lia]).
        pose proof (mul_window m ext w d (bingen m w (y i)) _ _ (pre i) (xs i) used (proj2 Hw) HV (proj1 (bingen_all m w) _ Hy) Hp Hpn N) as D2.
        cbv zeta in D2. rewrite Zx in D2. exact D2.
      + pose proof (below_window ext w d (bingen m w b) T0 T used (proj2 Hw) HV (proj1 (bingen_all m w) b (Hbias Ha)) Hu) as D.
        unfold s1, s0. rewrite !bsgen_ones by (try exact HV; lia). apply in_grid in D. fold tq in D.
        eapply Qle_trans; [exact D|]. rewrite Ee.
        assert (S1 : (inject_Z (times used * Z.of_nat w) <= layer_slack m w used)%Q).
        { unfold layer_slack. rewrite <- Zle_Qle. unfold times. destruct used, m; lia. }
        lra.
    - intros a Ha. apply terms_in in Ha. destruct a as [i|]; unfold P.
      + rewrite prod_prob_value, of_prob_grid, of_to. unfold Qminus. rewrite Qplus_opp_r. discriminate.
      + rewrite of_prob_grid. unfold Qminus. rewrite Qplus_opp_r. discriminate. }
  eapply Qle_trans; [exact G2|]. rewrite Ee. apply Qle_lteq. right. field. lra.
Qed.

(** ** FSULinear, fresh or used *)
Lemma lane_app h1 h2 b i : lane (h1 ++ h2) b i = lane h1 b i ++ lane h2 b i.
Proof. unfold lane. apply map_app. Qed.
Lemma lane_length h b i : length (lane h b i) = length h.
Proof. unfold lane. apply map_length. Qed.
Lemma no_args_app h1 h2 : no_args (h1 ++ h2) = no_args h1 ++ no_args h2.
Proof. unfold no_args. apply map_app. Qed.

Lemma dir_lane_abs m (we : list (list Q)) no ni o i : shape2 no ni we = true -> Forall (Forall (src_ok m)) we -> (o < no)%nat -> (i < ni)%nat ->
  src_ok m (nth i (nth o we []) 0%Q).
Proof.
  intros S2 Hwe Ho Hi. pose proof (shape2_spec _ _ _ S2) as [W1 W2]. rewrite Forall_forall in W2.
  specialize (W2 (nth o we []) ltac:(apply nth_In; lia)).
  rewrite Forall_forall in Hwe. specialize (Hwe (nth o we []) ltac:(apply nth_In; lia)). rewrite Forall_forall in Hwe. apply Hwe. apply nth_In. lia.
Qed.

(** The layer with the weights and biases on the grid. *)
Definition quantised (m : mode) (w : nat) (L : layer) : layer :=
  let g := fun y => grid_value m w (bingen m w y) in
  {| ly_in := ly_in L; ly_out := ly_out L; ly_bias := ly_bias L; ly_w := map (map g) (ly_w L); ly_b := option_map (map g) (ly_b L);
     ly_dim := ly_dim L; ly_depth := ly_depth L |}.
Lemma mean_close {A} (l : list A) (bias : bool) (f g : A -> Q) (b c d : Q) : l <> [] -> (forall i, In i l -> (Qabs (f i - g i) <= d)%Q) -> (bias = true -> (Qabs (b - c) <= d)%Q) ->
  (Qabs ((qsum (map f l) + (if bias then b else 0)) / inject_Z (zlen l + b2z bias) - (qsum (map g l) + (if bias then c else 0)) / inject_Z (zlen l + b2z bias)) <= d)%Q.
Proof.
  intros Hl Hf Hb. rewrite <- (terms_qsum l bias f b), <- (terms_qsum l bias g c), <- terms_len.
  assert (L : 0 < zlen (terms l bias)) by (rewrite terms_len; unfold zlen; destruct l; [contradiction|cbn [length]]; destruct bias; cbn [b2z]; lia).
  apply inj_pos in L. set (E := inject_Z (zlen (terms l bias))) in *.
  set (F := fun a : option A => match a with Some i => f i | None => b end). set (G := fun a : option A => match a with Some i => g i | None => c end).
  pose proof (sum_err (terms l bias) F G d) as S. fold E in S.
  assert (S2 : (Qabs (qsum (map F (terms l bias)) - qsum (map G (terms l bias))) <= E * d)%Q).
  { apply S. intros a Ha. apply terms_in in Ha. destruct a; cbn [F G]; auto. }
  change (fun a : option A => match a with Some i => f i | None => b end) with F. change (fun a : option A => match a with Some i => g i | None => c end) with G.
  apply qabs_le in S2. apply qabs_le. set (X := qsum (map F (terms l bias))) in *. set (Y := qsum (map G (terms l bias))) in *.
  assert (D : (E * (X / E - Y / E) == X - Y)%Q) by (field; lra). split; apply (Qmult_le_l _ _ E L); rewrite D; lra.
Qed.
Lemma prod_close a a' y g q d : (Qabs a <= 1)%Q -> (Qabs a' <= 1)%Q -> (Qabs y <= 1)%Q -> (Qabs (a' - a) <= q)%Q -> (Qabs (g - y) <= d)%Q ->
  (Qabs (a' * g - a * y) <= q + d)%Q.
Proof.
  intros Ha Ha' Hy Hq Hd. apply qabs_le in Ha, Ha', Hy, Hq, Hd. apply qabs_le.
  assert (E : (a' * g - a * y == a' * (g - y) + y * (a' - a))%Q) by ring. rewrite E.
  assert (B1 : (- d <= a' * (g - y) <= d)%Q) by (split; nra). assert (B2 : (- q <= y * (a' - a) <= q)%Q) by (split; nra). lra.
Qed.
(** Inputs that are off by q: the layer is off by q plus half a grid step. *)
Lemma layer_close ext w m_name r_name m L c a : builds ext w m_name r_name L (c, a) ->
  names_mode m_name m -> named r_name ["sobol"%string; "rc"%string] -> layer_ok m ext L ->
  forall (x x' : nat -> Q) q o, (o < ly_out L)%nat -> (0 <= q)%Q ->
  (forall i, (i < ly_in L)%nat -> (Qabs (x i) <= 1)%Q /\ (Qabs (x' i) <= 1)%Q /\ (Qabs (x' i - x i) <= q)%Q) ->
  (Qabs (real_layer L x o) <= 1)%Q /\ (Qabs (real_layer (quantised m w L) x' o) <= 1)%Q /\
  (Qabs (real_layer (quantised m w L) x' o - real_layer L x o) <= q + grid_step m w / 2)%Q.
Proof.
  intros E Hm Hr (Hni & HV & Hwe & Hbe & Hd) x x' q o Ho Hq Hx.
  unfold builds in E. unfold real_layer, ly_entries, quantised. cbn [ly_in ly_out ly_bias ly_w ly_b].
  set (ni := ly_in L) in *. set (no := ly_out L) in *. set (bias := ly_bias L) in *. set (we := ly_w L) in *. set (be := ly_b L) in *. clearbody ni no bias we be.
  destruct (lin_parts _ _ _ _ _ _ _ _ _ _ _ _ _ _ _ E Hm Hr) as (_ & _ & _ & _ & _ & _ & _ & _ & S2 & Hbl & _). clear E.
  assert (Wy : forall i, (i < ni)%nat -> src_ok m (nth i (nth o we []) 0%Q)) by (intros i Hi; exact (dir_lane_abs m we no ni o i S2 Hwe Ho Hi)).
  assert (Bb : bias = true -> src_ok m (bias_entry be o)).
  { intros Ebias. destruct (Hbl Ebias) as (bl & -> & Lb). cbn [bias_entry src_opt] in *. rewrite Forall_forall in Hbe. apply Hbe. apply nth_In. lia. }
  set (g := fun y => grid_value m w (bingen m w y)) in *.
  assert (Be : match option_map (map g) be with Some b0 => if bias then nth o b0 0 else 0 | None => 0 end%Q = if bias then g (bias_entry be o) else 0%Q).
  { destruct bias; [destruct (Hbl eq_refl) as (bl & -> & Lb)|destruct be; reflexivity]. cbn [option_map bias_entry].
    rewrite nth_indep with (d' := g 0%Q) by (rewrite map_length; lia). apply map_nth. }
  assert (Be0 : match be with Some b0 => if bias then nth o b0 0 else 0 | None => 0 end%Q = if bias then bias_entry be o else 0%Q).
  { destruct bias; [destruct (Hbl eq_refl) as (bl & -> & _); reflexivity|]. destruct be; reflexivity. }
  rewrite Be, Be0.
  assert (Ge : map (fun i => x' i * nth i (nth o (map (map g) we) []) 0)%Q (seq 0 ni) = map (fun i => x' i * g (nth i (nth o we []) 0))%Q (seq 0 ni)).
  { apply map_ext_in. intros i Hi. apply in_seq in Hi. f_equal. pose proof (shape2_spec _ _ _ S2) as [W1 W2]. rewrite Forall_forall in W2.
    specialize (W2 (nth o we []) ltac:(apply nth_In; lia)).
    rewrite nth_indep with (d' := map g []) by (rewrite map_length; lia). rewrite map_nth.
    rewrite nth_indep with (d' := g 0%Q) by (rewrite map_length; lia). apply map_nth. }
  rewrite Ge. assert (Zs : zlen (seq 0 ni) = Z.of_nat ni) by (unfold zlen; rewrite seq_length; reflexivity). rewrite <- Zs.
  assert (Hl : seq 0 ni <> []) by (destruct ni; [lia|discriminate]). pose proof (grid_step_pos m w) as GP.
  assert (G2 : (0 < grid_step m w / 2)%Q) by (apply Qlt_shift_div_l; lra).
  split; [|split].
  - apply mean_in; [exact Hl| |intros Eb; exact (src_abs m _ (Bb Eb))]. intros i Hi. apply in_seq in Hi. destruct (Hx i ltac:(lia)) as (A1 & _ & _). pose proof (src_abs m _ (Wy i ltac:(lia))) as A2.
    rewrite Qabs_Qmult. pose proof (Qabs_nonneg (x i)). pose proof (Qabs_nonneg (nth i (nth o we []) 0%Q)). nra.
  - apply mean_in; [exact Hl| |intros Eb; exact (grid_in m w _ (Bb Eb))]. intros i Hi. apply in_seq in Hi. destruct (Hx i ltac:(lia)) as (_ & A1 & _). pose proof (grid_in m w _ (Wy i ltac:(lia))) as A2. fold (g (nth i (nth o we []) 0%Q)) in A2.
    rewrite Qabs_Qmult. pose proof (Qabs_nonneg (x' i)). pose proof (Qabs_nonneg (g (nth i (nth o we []) 0%Q))). nra.
  - apply (mean_close (seq 0 ni) bias (fun i => x' i * g (nth i (nth o we []) 0))%Q (fun i => x i * nth i (nth o we []) 0)%Q (g (bias_entry be o)) (bias_entry be o)); [exact Hl| |].
    + intros i Hi. apply in_seq in Hi. destruct (Hx i ltac:(lia)) as (A1 & A2 & A3).
      apply prod_close; [exact A1|exact A2|exact (src_abs m _ (Wy i ltac:(lia)))|exact A3|apply grid_err].
    + intros Eb. pose proof (grid_err m w (bias_entry be o)) as GE. apply qabs_le in GE. apply qabs_le. unfold g. split; lra.
Qed.

Theorem linear_core : forall ext w m_name r_name m L c a, builds ext w m_name r_name L (c, a) ->
  names_mode m_name m -> named r_name ["sobol"%string; "rc"%string] -> (1 <= w <= 30)%nat -> layer_ok m ext L ->
  forall B (used : bool) h1 h2 x q K, (1 <= B)%nat -> Forall (batch_ok B (ly_in L)) h1 -> Forall (batch_ok B (ly_in L)) h2 ->
  (used = false -> h1 = []) -> (0 <= q)%Q -> (0 <= K)%Q ->
  (forall b i, (b < B)%nat -> (i < ly_in L)%nat -> (Qabs (x b i) <= 1)%Q /\ progresses m q K (x b i) (lane h2 b i)) ->
  exists os1 os2, outputs (run_r (flin_step c a) (flin_init c) (no_args (h1 ++ h2))) = Some (os1 ++ os2) /\
  length os1 = length h1 /\ length os2 = length h2 /\ Forall (batch_ok B (ly_out L)) os1 /\ Forall (batch_ok B (ly_out L)) os2 /\
  forall b o, (b < B)%nat -> (o < ly_out L)%nat ->
    progresses m q (K + layer_slack m w used + 1) (real_layer (quantised m w L) (x b) o) (lane os2 b o).
Proof.
  intros ext w mn rn m L c a E Hm Hr Hw (Hni & HV & Hwe & Hbe & Hd) B used h1 h2 x q K HB Hh1 Hh2 Hu Hq HK Hx.
  unfold builds in E. unfold ly_entries in Hd. unfold real_layer, ly_entries, quantised. cbn [ly_in ly_out ly_bias ly_w ly_b].
  set (ni := ly_in L) in *. set (no := ly_out L) in *. set (bias := ly_bias L) in *. set (we := ly_w L) in *. set (be := ly_b L) in *.
  set (dimr := ly_dim L) in *. set (depth := ly_depth L) in *. clearbody ni no bias we be dimr depth.
  destruct (lin_parts _ _ _ _ _ _ _ _ _ _ _ _ _ _ _ E Hm Hr) as (-> & Sh & Em & Et & Er & Ei & Eo & Ew & S2 & Hbl & Eb). clear E.
  assert (EE : flin_entry c = Z.of_nat ni + b2z bias).
  { unfold flin_entry. rewrite Ei, Eb. destruct bias; [|reflexivity]. destruct (Hbl eq_refl) as (b & -> & _). reflexivity. }
  pose proof (rng_sobol_perm ext w dimr (proj2 Hw) HV) as HP.
  assert (RO : rng_ok c).
  { unfold rng_ok. rewrite Er, (Permutation_length HP), len_zrange. assert (2 ^ w <> 0)%nat by (apply Nat.pow_nonzero; lia). lia. }
  assert (GO : forall h', Forall (batch_ok B ni) h' ->
    exists os, outputs (run_r (flin_step c (flin_acc_cfg c None depth)) (flin_init c) (no_args h')) = Some os /\
      length os = length h' /\ Forall (batch_ok B (pc_out c)) os /\
      forall b o, (b < B)%nat -> (o < pc_out c)%nat ->
      ones (lane os b o) =
      (zsum (map (fun i => ones (outs (fsumul_static_step (pc_mode c) (entry2 (pc_weight c) o i) (pc_rng c))
                                      fsumul_static_init (lane h' b i))) (seq 0 (pc_in c)))
       + match pc_bias c with None => 0 | Some bs => ones (bsgen_stream (nth o bs 0) (pc_rng c) 0 (length h')) end)
      / (Z.of_nat (pc_in c) + match pc_bias c with None => 0 | Some _ => 1 end)).
  { intros h' Hh'. apply (flin_rate c depth B h' Sh RO Et HB); [rewrite EE; destruct bias; cbn [b2z]; lia|rewrite EE; exact Hd|rewrite Ei; exact Hh']. }
  assert (Hh : Forall (batch_ok B ni) (h1 ++ h2)) by (apply Forall_app; split; assumption).
  destruct (GO (h1 ++ h2) Hh) as (os & R & Lo & Fo & _). rewrite app_length in Lo.
  exists (firstn (length h1) os), (skipn (length h1) os). rewrite firstn_skipn. split; [exact R|].
  assert (L1 : length (firstn (length h1) os) = length h1) by (rewrite firstn_length; lia). split; [exact L1|].
  assert (L2 : length (skipn (length h1) os) = length h2) by (rewrite skipn_length; lia). split; [exact L2|].
  rewrite Eo in Fo. split; [apply forall_firstn; exact Fo|]. split; [rewrite <- (firstn_skipn (length h1) os) in Fo; apply Forall_app in Fo; exact (proj2 Fo)|].
  intros b o Hb Ho. set (os1 := firstn (length h1) os) in *. set (os2 := skipn (length h1) os) in *.
  assert (Fo2 : Forall (batch_ok B no) os2) by (rewrite <- (firstn_skipn (length h1) os) in Fo; apply Forall_app in Fo; exact (proj2 Fo)).
  assert (Wy : forall i, (i < ni)%nat -> src_ok m (nth i (nth o we []) 0%Q)) by (intros i Hi; exact (dir_lane_abs m we no ni o i S2 Hwe Ho Hi)).
  assert (We : forall i, (i < ni)%nat -> entry2 (map (map (bingen m w)) we) o i = bingen m w (nth i (nth o we []) 0%Q)).
  { intros i Hi. pose proof (shape2_spec _ _ _ S2) as [W1 W2]. unfold entry2. rewrite Forall_forall in W2. specialize (W2 (nth o we []) ltac:(apply nth_In; lia)).
    rewrite nth_indep with (d' := map (bingen m w) []) by (rewrite map_length; lia). rewrite map_nth.
    rewrite nth_indep with (d' := bingen m w 0%Q) by (rewrite map_length; lia). rewrite map_nth. reflexivity. }
  assert (Bb : bias = true -> src_ok m (bias_entry be o)).
  { intros Ebias. destruct (Hbl Ebias) as (bl & -> & Lb). cbn [bias_entry src_opt] in *. rewrite Forall_forall in Hbe. apply Hbe. apply nth_In. lia. }
  assert (Zs : zlen (seq 0 ni) = Z.of_nat ni) by (unfold zlen; rewrite seq_length; reflexivity).
  set (g := fun y => grid_value m w (bingen m w y)) in *.
  assert (Be : match option_map (map g) be with Some b0 => if bias then nth o b0 0 else 0 | None => 0 end%Q = if bias then g (bias_entry be o) else 0%Q).
  { destruct bias; [destruct (Hbl eq_refl) as (bl & -> & Lb)|destruct be; reflexivity]. cbn [option_map bias_entry].
    rewrite nth_indep with (d' := g 0%Q) by (rewrite map_length; lia). apply map_nth. }
  rewrite Be.
  assert (Ge : map (fun i => x b i * nth i (nth o (map (map g) we) []) 0)%Q (seq 0 ni) = map (fun i => x b i * g (nth i (nth o we []) 0))%Q (seq 0 ni)).
  { apply map_ext_in. intros i Hi. apply in_seq in Hi. f_equal. pose proof (shape2_spec _ _ _ S2) as [W1 W2]. rewrite Forall_forall in W2.
    specialize (W2 (nth o we []) ltac:(apply nth_In; lia)).
    rewrite nth_indep with (d' := map g []) by (rewrite map_length; lia). rewrite map_nth.
    rewrite nth_indep with (d' := g 0%Q) by (rewrite map_length; lia). apply map_nth. }
  rewrite Ge.
  intros t Ht. rewrite lane_length, L2 in Ht. rewrite <- lane_firstn.
  assert (Hht : Forall (batch_ok B ni) (h1 ++ firstn t h2)) by (apply Forall_app; split; [exact Hh1|apply forall_firstn; exact Hh2]).
  destruct (GO h1 Hh1) as (o1 & R1 & Lo1 & _ & Ones1).
  pose proof (run_r_firstn _ (length h1) _ _ _ R) as X. unfold no_args in X, R1. rewrite firstn_map, firstn_app, Nat.sub_diag, firstn_O, app_nil_r, firstn_all in X.
  rewrite X in R1. injection R1 as <-. clear X. fold os1 in Lo1, Ones1.
  destruct (GO (h1 ++ firstn t h2) Hht) as (o2 & R2 & Lo2 & _ & Ones2).
  pose proof (run_r_firstn _ (length h1 + t) _ _ _ R) as X. unfold no_args in X, R2. rewrite firstn_map, firstn_app_2 in X.
  rewrite X in R2. injection R2 as <-. clear X.
  assert (Eos : firstn (length h1 + t) os = os1 ++ firstn t os2).
  { rewrite <- (firstn_skipn (length h1) os) at 1. fold os1 os2. rewrite <- L1 at 1. apply firstn_app_2. }
  rewrite Eos in Ones2. specialize (Ones1 b o Hb ltac:(rewrite Eo; exact Ho)). specialize (Ones2 b o Hb ltac:(rewrite Eo; exact Ho)).
  rewrite lane_app, ones_app in Ones2.
  assert (Lt : length (firstn t h2) = t) by (rewrite firstn_length; lia).
  rewrite app_length, Lt in Ones2.
  rewrite Em, Er, Ei, Ew, Eb in Ones1, Ones2.
  pose proof (lane_window m w ext dimr (seq 0 ni) bias used (lane h1 b) (lane (firstn t h2) b) (x b) (fun i => nth i (nth o we []) 0%Q)
                (bias_entry be o) q K (length h1) t (lane (firstn t os2) b o) Hw HV) as G. rewrite Zs in G. apply G; clear G.
  - destruct ni; [lia|discriminate].
  - lia.
  - apply (lane_bits B no); [apply forall_firstn; exact Fo2|exact Hb|exact Ho].
  - unfold zlen. rewrite lane_length, firstn_length. f_equal. lia.
  - intros X. rewrite (Hu X). reflexivity.
  - exact Hq.
  - exact HK.
  - intros i Hi. apply in_seq in Hi. destruct (Hx b i Hb ltac:(lia)) as [A1 P].
    split; [apply (lane_bits B ni); [exact Hh1|exact Hb|lia]|]. split; [apply lane_length|].
    split; [apply (lane_bits B ni); [apply forall_firstn; exact Hh2|exact Hb|lia]|]. split; [rewrite lane_length; exact Lt|].
    split; [rewrite lane_firstn; apply P; rewrite lane_length; exact Ht|]. split; [exact A1|apply Wy; lia].
  - exact Bb.
  - cbv zeta beta. set (A := ones (lane os1 b o)) in *.
    assert (MM : forall hh, zsum (map (fun i => ones (outs (fsumul_static_step m (entry2 (map (map (bingen m w)) we) o i) (rng_seq ext KSobol w dimr)) fsumul_static_init (lane hh b i))) (seq 0 ni))
                 = zsum (map (fun i => ones (outs (fsumul_static_step m (bingen m w (nth i (nth o we []) 0%Q)) (rng_seq ext KSobol w dimr)) fsumul_static_init (lane hh b i))) (seq 0 ni))).
    { intros hh. f_equal. apply map_ext_in. intros i Hi. apply in_seq in Hi. rewrite We by lia. reflexivity. }
    rewrite MM in Ones1, Ones2.
    assert (LA : map (fun i => ones (outs (fsumul_static_step m (bingen m w (nth i (nth o we []) 0%Q)) (rng_seq ext KSobol w dimr)) fsumul_static_init (lane h1 b i ++ lane (firstn t h2) b i))) (seq 0 ni)
               = map (fun i => ones (outs (fsumul_static_step m (bingen m w (nth i (nth o we []) 0%Q)) (rng_seq ext KSobol w dimr)) fsumul_static_init (lane (h1 ++ firstn t h2) b i))) (seq 0 ni)).
    { apply map_ext. intros i. rewrite lane_app. reflexivity. }
    rewrite LA.
    destruct bias; cbn [b2z] in *.
    + destruct (Hbl eq_refl) as (bl & -> & Lb). cbn [option_map bias_entry] in *.
      assert (NB : nth o (map (bingen m w) bl) 0 = bingen m w (nth o bl 0%Q)).
      { rewrite nth_indep with (d' := bingen m w 0%Q) by (rewrite map_length; lia). apply map_nth. }
      rewrite NB in Ones1, Ones2. lia.
    + cbn [option_map] in *. lia.
Qed.

Theorem linear_again : forall ext w m_name r_name m L c a, builds ext w m_name r_name L (c, a) ->
  names_mode m_name m -> named r_name ["sobol"%string; "rc"%string] -> (1 <= w <= 30)%nat -> layer_ok m ext L ->
  forall B (used : bool) h1 h2 x q K, (1 <= B)%nat -> Forall (batch_ok B (ly_in L)) h1 -> Forall (batch_ok B (ly_in L)) h2 ->
  (used = false -> h1 = []) -> (0 <= q)%Q -> (0 <= K)%Q ->
  (forall b i, (b < B)%nat -> (i < ly_in L)%nat -> (Qabs (x b i) <= 1)%Q /\ progresses m q K (x b i) (lane h2 b i)) ->
  exists os1 os2, outputs (run_r (flin_step c a) (flin_init c) (no_args (h1 ++ h2))) = Some (os1 ++ os2) /\
  length os1 = length h1 /\ length os2 = length h2 /\ Forall (batch_ok B (ly_out L)) os1 /\ Forall (batch_ok B (ly_out L)) os2 /\
  forall b o, (b < B)%nat -> (o < ly_out L)%nat ->
    (Qabs (real_layer L (x b) o) <= 1)%Q /\
    progresses m (q + grid_step m w / 2) (K + layer_slack m w used + 1) (real_layer L (x b) o) (lane os2 b o).
Proof.
  intros ext w mn rn m L c a E Hm Hr Hw HL B used h1 h2 x q K HB Hh1 Hh2 Hu Hq HK Hx.
  destruct (linear_core _ _ _ _ m L c a E Hm Hr Hw HL B used h1 h2 x q K HB Hh1 Hh2 Hu Hq HK Hx) as (os1 & os2 & R & L1 & L2 & F1 & F2 & P).
  exists os1, os2. split; [exact R|]. split; [exact L1|]. split; [exact L2|]. split; [exact F1|]. split; [exact F2|]. intros b o Hb Ho.
  pose proof (layer_close _ _ _ _ m L c a E Hm Hr HL (x b) (x b) 0 o Ho ltac:(discriminate)) as C.
  destruct C as (C1 & C2 & C3).
  { intros i Hi. destruct (Hx b i Hb Hi) as [A _]. split; [exact A|]. split; [exact A|]. unfold Qminus. rewrite Qplus_opp_r. discriminate. }
  split; [exact C1|]. intros t Ht. specialize (P b o Hb Ho t Ht). apply qabs_le in P. apply qabs_le in C3. apply qabs_le. split; lra.
Qed.

(** ** Networks *)
Lemma net_run c a cas : forall h s ss mid os,
  outputs (run_r (flin_step c a) s (no_args h)) = Some mid -> outputs (run_r (net_step cas) ss mid) = Some os ->
  outputs (run_r (net_step ((c, a) :: cas)) (s :: ss) h) = Some os.
Proof.
  induction h as [|x h IH]; intros s ss mid os H1 H2.
  - cbn in H1. injection H1 as <-. exact H2.
  - unfold no_args in H1. cbn [map run_r] in H1. destruct (flin_step c a s (x, None, None)) as [[s1 y]|e] eqn:F; [|discriminate].
    destruct (run_r (flin_step c a) s1 (map (fun x0 => (x0, None, None)) h)) as [[s2 ys]|e] eqn:R; [|discriminate].
    cbn [outputs] in H1. injection H1 as <-. cbn [run_r] in H2. destruct (net_step cas ss y) as [[ss1 z]|e] eqn:N; [|discriminate].
    destruct (run_r (net_step cas) ss1 ys) as [[ss2 zs]|e] eqn:R2; [|discriminate]. cbn [outputs] in H2. injection H2 as <-.
    assert (ST : net_step ((c, a) :: cas) (s :: ss) x = Ok (s1 :: ss1, z)) by (cbn [net_step]; rewrite F; cbn [bind fst snd]; rewrite N; reflexivity).
    set (st := net_step ((c, a) :: cas)) in *. clearbody st. cbn [run_r]. rewrite ST.
    specialize (IH s1 ss1 ys zs). unfold no_args in IH. rewrite R, R2 in IH. specialize (IH eq_refl eq_refl).
    destruct (run_r st (s1 :: ss1) h) as [[ss3 ws]|e]; [|discriminate]. cbn [outputs] in *. injection IH as ->. reflexivity.
Qed.
Lemma net_nil_run ss : forall h : list (list (list Z)), outputs (run_r (net_step []) ss h) = Some h.
Proof.
  intros h. assert (ST : forall s x, net_step [] s x = Ok ([], x)) by reflexivity. set (st := net_step []) in *. clearbody st.
  revert ss. induction h as [|x h IH]; intros ss; [reflexivity|]. cbn [run_r]. rewrite ST. specialize (IH []).
  destruct (run_r st [] h) as [[s o]|e]; [|discriminate]. cbn [outputs] in *. injection IH as ->. reflexivity.
Qed.

Lemma slack_pos m w used : (0 <= layer_slack m w used)%Q.
Proof. unfold layer_slack. change 0%Q with (inject_Z 0). rewrite <- Zle_Qle. destruct used, m; lia. Qed.
Lemma progresses_weaken m q q' K K' v xs : (q <= q')%Q -> (K <= K')%Q -> progresses m q K v xs -> progresses m q' K' v xs.
Proof.
  intros Hq HK P t Ht. eapply Qle_trans; [exact (P t Ht)|]. assert (T : (0 < inject_Z (Z.of_nat t))%Q) by (apply inj_pos; lia).
  assert (D : (span m * K / inject_Z (Z.of_nat t) <= span m * K' / inject_Z (Z.of_nat t))%Q).
  { apply Qle_shift_div_l; [exact T|]. assert (span m * K / inject_Z (Z.of_nat t) * inject_Z (Z.of_nat t) == span m * K)%Q as -> by (field; lra).
    pose proof (span_pos m). nra. }
  lra.
Qed.

Theorem net_progress : forall ext w m_name r_name m, names_mode m_name m -> named r_name ["sobol"%string; "rc"%string] -> (1 <= w <= 30)%nat ->
  forall Ls cas, Forall2 (builds ext w m_name r_name) Ls cas -> Forall (layer_ok m ext) Ls ->
  forall n B (used : bool) h1 h2 x q K, chained n Ls -> (1 <= B)%nat -> Forall (batch_ok B n) h1 -> Forall (batch_ok B n) h2 ->
  (used = false -> h1 = []) -> (0 <= q)%Q -> (0 <= K)%Q ->
  (forall b i, (b < B)%nat -> (i < n)%nat -> (Qabs (x b i) <= 1)%Q /\ progresses m q K (x b i) (lane h2 b i)) ->
  exists os1 os2, outputs (run_r (net_step cas) (net_init cas) (h1 ++ h2)) = Some (os1 ++ os2) /\
  length os1 = length h1 /\ length os2 = length h2 /\ Forall (batch_ok B (net_out n Ls)) os2 /\
  forall b o, (b < B)%nat -> (o < net_out n Ls)%nat ->
    (Qabs (real_net Ls (x b) o) <= 1)%Q /\
    progresses m (q + inject_Z (zlen Ls) * (grid_step m w / 2)) (K + inject_Z (zlen Ls) * (layer_slack m w used + 1)) (real_net Ls (x b) o) (lane os2 b o).
Proof.
  intros ext w mn rn m Hm Hr Hw Ls cas HF. induction HF as [|L [c a] Ls cas HL HF IH]; intros HO n B used h1 h2 x q K Hc HB Hh1 Hh2 Hu Hq HK Hx.
  - exists h1, h2. split; [apply net_nil_run|]. split; [reflexivity|]. split; [reflexivity|]. split; [exact Hh2|]. intros b o Hb Ho.
    destruct (Hx b o Hb Ho) as [A P]. split; [exact A|].
    apply (progresses_weaken m q _ K); [| |exact P]; change (inject_Z (zlen (@nil layer))) with 0%Q; lra.
  - inversion HO as [|? ? OL OLs]; subst. destruct Hc as [En Hc]. subst n.
    destruct (linear_again _ _ _ _ m L c a HL Hm Hr Hw OL B used h1 h2 x q K HB Hh1 Hh2 Hu Hq HK Hx) as (m1 & m2 & R & L1 & L2 & F1 & F2 & P).
    pose proof (grid_step_pos m w) as GP. pose proof (slack_pos m w used) as SP.
    assert (Hu' : used = false -> m1 = []) by (intros X; rewrite (Hu X) in L1; destruct m1; [reflexivity|discriminate]).
    assert (G2 : (0 < grid_step m w / 2)%Q) by (apply Qlt_shift_div_l; lra).
    destruct (IH OLs (ly_out L) B used m1 m2 (fun b => real_layer L (x b)) (q + grid_step m w / 2)%Q (K + layer_slack m w used + 1)%Q Hc HB F1 F2 Hu' ltac:(lra) ltac:(lra) P)
      as (os1 & os2 & R2 & L3 & L4 & F3 & P2).
    exists os1, os2. split; [exact (net_run c a cas (h1 ++ h2) (flin_init c) (net_init cas) (m1 ++ m2) (os1 ++ os2) R R2)|].
    split; [congruence|]. split; [congruence|]. split; [exact F3|]. intros b o Hb Ho. destruct (P2 b o Hb Ho) as [A Pr]. split; [exact A|].
    assert (EL : (inject_Z (zlen (L :: Ls)) == 1 + inject_Z (zlen Ls))%Q).
    { unfold zlen. cbn [length]. rewrite Nat2Z.inj_succ. unfold Z.succ. rewrite inject_Z_plus. change (inject_Z 1) with 1%Q. ring. }
    refine (progresses_weaken m _ _ _ _ _ _ _ _ Pr); rewrite EL; lra.
Qed.

Theorem net_encoded : forall ext w m_name r_name m, names_mode m_name m -> named r_name ["sobol"%string; "rc"%string] -> (1 <= w <= 30)%nat ->
  forall Ls cas, Forall2 (builds ext w m_name r_name) Ls cas -> Forall (layer_ok m ext) Ls ->
  forall n B h1 h2 extx dimx x, chained n Ls -> (1 <= B)%nat -> Forall (batch_ok B n) h1 -> Forall (batch_ok B n) h2 ->
  (forall b i, (b < B)%nat -> (i < n)%nat -> dirvec_ok 30 (ext_dirvec extx (dimx b i)) /\ src_ok m (x b i) /\
     lane h2 b i = bsgen_stream (bingen m w (x b i)) (rng_seq extx KSobol w (dimx b i)) 0 (length h2)) ->
  exists os1 os2, outputs (run_r (net_step cas) (net_init cas) (h1 ++ h2)) = Some (os1 ++ os2) /\
  length os1 = length h1 /\ length os2 = length h2 /\
  forall b o t, (b < B)%nat -> (o < net_out n Ls)%nat -> (1 <= t <= length h2)%nat ->
    (Qabs (value m (firstn t (lane os2 b o)) - real_net Ls (x b) o)
     <= inject_Z (zlen Ls + 1) * (grid_step m w / 2) +
        span m * inject_Z (Z.of_nat w + zlen Ls * (4 * Z.of_nat w + 1)) / inject_Z (Z.of_nat t))%Q.
Proof.
  intros ext w mn rn m Hm Hr Hw Ls cas HF HO n B h1 h2 extx dimx x Hc HB Hh1 Hh2 Hx.
  pose proof (grid_step_pos m w) as GP. assert (G2 : (0 < grid_step m w / 2)%Q) by (apply Qlt_shift_div_l; lra).
  assert (W0 : (0 <= inject_Z (Z.of_nat w))%Q) by (change 0%Q with (inject_Z 0); rewrite <- Zle_Qle; lia).
  destruct (net_progress ext w mn rn m Hm Hr Hw Ls cas HF HO n B true h1 h2 x (grid_step m w / 2)%Q (inject_Z (Z.of_nat w)) Hc HB Hh1 Hh2 ltac:(discriminate) ltac:(lra) W0)
    as (os1 & os2 & R & L1 & L2 & _ & P).
  { intros b i Hb Hi. destruct (Hx b i Hb Hi) as (V & S & ->). split; [exact (src_abs m _ S)|]. apply bsgen_progress; [lia|exact V|exact S]. }
  exists os1, os2. split; [exact R|]. split; [exact L1|]. split; [exact L2|]. intros b o t Hb Ho Ht.
  destruct (P b o Hb Ho) as [_ Pr].
  assert (Pr2 : progresses m (inject_Z (zlen Ls + 1) * (grid_step m w / 2)) (inject_Z (Z.of_nat w + zlen Ls * (4 * Z.of_nat w + 1))) (real_net Ls (x b) o) (lane os2 b o)).
  { refine (progresses_weaken m _ _ _ _ _ _ _ _ Pr).
    - rewrite inject_Z_plus. change (inject_Z 1) with 1%Q. lra.
    - unfold layer_slack. change 1%Q with (inject_Z 1). rewrite <- inject_Z_plus, <- inject_Z_mult, <- inject_Z_plus, <- Zle_Qle.
      assert (0 <= zlen Ls) by (unfold zlen; lia). destruct m; nia. }
  apply Pr2. rewrite lane_length, L2. exact Ht.
Qed.
