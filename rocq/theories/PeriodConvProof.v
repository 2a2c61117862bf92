(** What convolutions do with images that repeat. *)
From Coq Require Import Lqa.
Require Import Verif.BaseLemmas Verif.PeriodSpec Verif.GenModel Verif.KernelModel Verif.AddModel Verif.AddProof Verif.LinearModel Verif.LinearProof Verif.ConvModel Verif.ConvProof Verif.ProgProof
  Verif.MonoProof Verif.FaultProof Verif.ShiftProof Verif.PeriodProof.
Open Scope Z_scope.

Lemma border_repeats m T0 P n : (1 <= P)%nat -> (m = Bipolar -> Nat.even P = true) -> repeats m T0 P 0 (map (border_bit m) (seq 0 n)).
Proof.
  intros HP He.
  assert (Bb : bits (map (border_bit m) (seq 0 n))) by (apply Forall_forall; intros b Hb; apply in_map_iff in Hb; destruct Hb as (t & <- & _); apply border_bit_bit).
  assert (E : forall k, ones (map (border_bit m) (seq 0 k)) = match m with Unipolar => 0 | Bipolar => Z.of_nat k / 2 end).
  { induction k as [|k IH]; [destruct m; reflexivity|]. rewrite seq_S, map_app, ones_app, IH. cbn [map Nat.add]. unfold border_bit. destruct m; [reflexivity|].
    rewrite ones_bit by (unfold bit; pose proof (Z.mod_pos_bound (Z.of_nat k) 2 ltac:(lia)); lia). change (ones []) with 0. rewrite Nat2Z.inj_succ.
    pose proof (Z.div_mod (Z.of_nat k) 2 ltac:(lia)). pose proof (Z.mod_pos_bound (Z.of_nat k) 2 ltac:(lia)).
    pose proof (Z.div_mod (Z.succ (Z.of_nat k)) 2 ltac:(lia)). pose proof (Z.mod_pos_bound (Z.succ (Z.of_nat k)) 2 ltac:(lia)). lia. }
  apply (grows_repeats m T0 P 0 _ (match m with Unipolar => 0 | Bipolar => Z.of_nat P / 2 end) Bb HP).
  - intros t Ht Hl. rewrite map_length, seq_length in Hl. rewrite !firstn_map, !firstn_seq by lia. rewrite !E. destruct m; [lia|].
    specialize (He eq_refl). apply Nat.even_spec in He. destruct He as [k ->]. rewrite Nat2Z.inj_add, !Nat2Z.inj_mul.
    change (Z.of_nat 2) with 2. rewrite (Z.mul_comm 2), Z.div_add, Z.div_mul by lia. reflexivity.
  - assert (PQ : (0 < inject_Z (Z.of_nat P))%Q) by (apply inj_pos; lia). unfold of_prob. destruct m; [reflexivity|].
    specialize (He eq_refl). apply Nat.even_spec in He. destruct He as [k ->]. rewrite Nat2Z.inj_mul in *. change (Z.of_nat 2) with 2 in *.
    rewrite (Z.mul_comm 2), Z.div_mul by lia. rewrite inject_Z_mult in *. change (inject_Z 2) with 2%Q in *. field. lra.
Qed.

Theorem conv_repeats : forall m w c depth, whole_layer m w (cv_pc c, depth) -> forall p N H W ho wo, conv_geom c p H W ho wo -> (1 <= N)%nat ->
  forall T0 P h f, (1 <= P)%nat -> (m = Bipolar -> Nat.even P = true) -> Forall (tensor_ok bit N (cv_chan c) H W) h ->
  (forall n k y x, (n < N)%nat -> (k < cv_chan c)%nat -> (y < H)%nat -> (x < W)%nat -> repeats m T0 P (f n k y x) (lane4 h n k y x)) ->
  exists os, outputs (run_r (fconv_step c (flin_acc_cfg (cv_pc c) None depth)) (fconv_init c) (no_args4 h)) = Some os /\ length os = length h /\
    forall n o y x, (n < N)%nat -> (o < pc_out (cv_pc c))%nat -> (y < ho)%nat -> (x < wo)%nat ->
      repeats m T0 (fan_in (cv_pc c, depth) * (2 ^ w * P)) (grid_layer m w (cv_pc c, depth) (seen c p H W (f n) y x) o) (lane4 os n o y x).
Proof.
  intros m w c depth HL p N H W ho wo G HN T0 P h f HP He Hh Hf.
  destruct (conv_layer c None depth p N H W ho wo h G HN Hh) as (ys & os & R & E & L & M & Hl).
  exists os. split; [exact E|]. split; [exact M|].
  assert (Gs := G). destruct Gs as (Sh & Ei & _ & _ & _ & K1 & K2 & _ & _ & O1 & O2 & _).
  set (g := fun b i => seen c p H W (f (b / (ho * wo))%nat) (b mod (ho * wo) / wo) (b mod (ho * wo) mod wo) i).
  destruct (linear_repeats m w (cv_pc c, depth) HL (N * (ho * wo)) T0 P (conv_rows c p ho wo h) g (rows_pos N ho wo HN O1 O2) HP
    (conv_rows_batches c p N H W ho wo _ G Hh)) as (z & A & _ & _ & Hz).
  - intros b i Hb Hi. cbn [fst] in Hi. destruct (split_row ho wo b N O1 O2 Hb) as (n & y & x & Hn & Hy & Hx & ->).
    destruct (rows_lane c p N H W ho wo h n y x G Hh Hn Hy Hx i Hi) as (ch & a & b' & Hc & Ha & Hb' & -> & ->).
    unfold g, row_index. destruct (decode3 ho wo n y x Hy Hx) as (-> & -> & ->). unfold seen, tap_index.
    destruct (decode3 _ _ ch a b' Ha Hb') as (-> & -> & ->).
    destruct (inside H W (tap_y c p y a) (tap_x c p x b')) eqn:In.
    + destruct (tap_inside c p N H W h n y x ch a b' Hh Hn Hc In) as (By & Bx & ->). apply Hf; assumption.
    + rewrite tap_outside by exact In. assert (Em : pc_mode (cv_pc c) = m) by apply HL. rewrite Em. apply border_repeats; assumption.
  - cbn [fst snd] in A, Hz. unfold cfg_of in *. rewrite R in A. injection A as <-.
    intros n o y x Hn Ho Hy Hx. rewrite Hl by assumption.
    pose proof (Hz (row_index ho wo n y x) o (fold_index n y x N ho wo Hn Hy Hx) Ho) as Hzz.
    unfold g, row_index in Hzz. destruct (decode3 ho wo n y x Hy Hx) as (E1 & E2 & E3). rewrite E1, E2, E3 in Hzz. exact Hzz.
Qed.

(** ** The activation *)
Theorem sigmoid_repeats : forall m d T0 P v xs, 4 <= d -> bits xs -> (1 <= P)%nat -> repeats m T0 P v xs ->
  repeats m T0 (2 * P) ((v + 1) / 2) (outs (fsuhardsigmoid_step m d) (fsuhardsigmoid_init m d) xs).
Proof.
  intros m d T0 P v xs Hd Hb Hp R.
  destruct (le_lt_dec (T0 + 2 * P) (length xs)) as [HL|HL].
  - destruct (repeats_grows m T0 P v xs Hb Hp ltac:(lia) R) as (K & HV & G).
    apply (grows_repeats m T0 _ _ _ (K + Z.of_nat P)).
    + rewrite hardsig_outs. apply fsuadd_bits.
    + lia.
    + intros t Ht Hl. rewrite outs_length in Hl. rewrite <- !BaseLemmas.outs_firstn.
      rewrite !hardsigmoid_exact by (try exact Hd; apply BaseLemmas.Forall_firstn; assumption).
      pose proof (grows_times T0 P K (length xs) _ 2 G t Ht Hl) as E. cbn beta in E. rewrite E.
      unfold zlen. rewrite !firstn_length, !Nat.min_l by lia. rewrite Nat2Z.inj_add, Nat2Z.inj_mul. change (Z.of_nat 2) with 2.
      rewrite <- div_add_times by lia. f_equal. lia.
    + rewrite <- HV. assert (PQ : (0 < inject_Z (Z.of_nat P))%Q) by (apply inj_pos; lia).
      rewrite Nat2Z.inj_mul, inject_Z_mult, inject_Z_plus. change (inject_Z (Z.of_nat 2)) with 2%Q. unfold of_prob. destruct m; field; lra.
  - split; intros t Ht Hl; rewrite outs_length in Hl; lia.
Qed.
