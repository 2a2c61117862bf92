(** Proofs about the Halton sequence generators of hw/stream/old. *)
From Coq Require Import Permutation.
Require Import Verif.BaseLemmas Verif.RtlMoreModel Verif.RtlMoreSpec.
Require Import Verif.RtlProof Verif.RtlRngProof.
Open Scope Z_scope.

Section Base.
  Variable b : Z.
  Hypothesis Hb : 2 <= b.

  Definition digs (n : nat) (k : Z) : list Z := map (fun i => digit b i k) (seq 0 n).
  Lemma pow_pos n : 0 < b ^ Z.of_nat n.
  Proof. apply Z.pow_pos_nonneg; lia. Qed.
  Lemma pow_S n : b ^ Z.of_nat (S n) = b * b ^ Z.of_nat n.
  Proof. rewrite Nat2Z.inj_succ, Z.pow_succ_r by lia. reflexivity. Qed.
  Lemma digit_0 k : digit b 0 k = k mod b.
  Proof. unfold digit. change (Z.of_nat 0) with 0. rewrite Z.pow_0_r, Z.div_1_r. reflexivity. Qed.
  Lemma digit_S i k : digit b (S i) k = digit b i (k / b).
  Proof. unfold digit. rewrite pow_S, Z.div_div by (pose proof (pow_pos i); lia). reflexivity. Qed.
  Lemma digs_S n k : digs (S n) k = k mod b :: digs n (k / b).
  Proof.
    unfold digs. cbn [seq map]. rewrite digit_0. f_equal. rewrite <- seq_shift, map_map. apply map_ext. intros i. apply digit_S.
  Qed.
  Lemma digs_0 n : digs n 0 = repeat 0 n.
  Proof. induction n as [|n IH]; [reflexivity|]. rewrite digs_S, Z.mod_0_l, Z.div_0_l, IH by lia. reflexivity. Qed.
  Lemma digs_length n k : length (digs n k) = n.
  Proof. unfold digs. rewrite map_length, seq_length. reflexivity. Qed.

  Lemma chain_0 ds : halton_chain b 0 ds = ds.
  Proof.
    induction ds as [|c r IH]; [reflexivity|]. cbn [halton_chain]. unfold modcnt. rewrite Z.land_0_r. cbn [Z.eqb]. rewrite IH, Z.add_0_r. reflexivity.
  Qed.
  Lemma chain_1 n : forall k, halton_chain b 1 (digs n k) = digs n (k + 1).
  Proof.
    induction n as [|n IH]; intros k; [reflexivity|]. rewrite !digs_S. cbn [halton_chain]. unfold modcnt.
    pose proof (Z.mod_pos_bound k b ltac:(lia)) as Hm. pose proof (Z.div_mod k b ltac:(lia)) as Hd.
    destruct (Z.eqb_spec (k mod b) (b - 1)) as [E|E]; cbn [b2z].
    - change (Z.land 1 1) with 1. cbn [Z.eqb Pos.eqb]. rewrite IH. destruct (Z.eqb_spec (k mod b) 0); [lia|]. cbn [b2z].
      rewrite <- (Z.div_unique (k + 1) b (k / b + 1) 0) by lia. rewrite <- (Z.mod_unique (k + 1) b (k / b + 1) 0) by lia. reflexivity.
    - change (Z.land 0 1) with 0. cbn [Z.eqb]. rewrite chain_0.
      rewrite <- (Z.div_unique (k + 1) b (k / b) (k mod b + 1)) by lia. rewrite <- (Z.mod_unique (k + 1) b (k / b) (k mod b + 1)) by lia. reflexivity.
  Qed.

  Lemma radical_S n k : radical_inverse b (S n) k = (k mod b) * b ^ Z.of_nat n + radical_inverse b n (k / b).
  Proof.
    unfold radical_inverse. cbn [seq map zsum]. rewrite digit_0. replace (S n - 1 - 0)%nat with n by lia. f_equal.
    rewrite <- seq_shift, map_map. f_equal. apply map_ext_in. intros i Hi. apply in_seq in Hi. rewrite digit_S. do 2 f_equal. lia.
  Qed.
  Lemma value_digs n : forall k, halton_value b (digs n k) = radical_inverse b n k.
  Proof.
    induction n as [|n IH]; intros k; [reflexivity|]. rewrite digs_S, radical_S. cbn [halton_value]. unfold zlen. rewrite digs_length, IH. reflexivity.
  Qed.
  Lemma radical_range n : forall k, 0 <= radical_inverse b n k < b ^ Z.of_nat n.
  Proof.
    induction n as [|n IH]; intros k; [cbn; lia|]. rewrite radical_S, pow_S. pose proof (IH (k / b)). pose proof (Z.mod_pos_bound k b ltac:(lia)). nia.
  Qed.
  Lemma radical_inj n : forall j k, radical_inverse b n j = radical_inverse b n k -> j mod b ^ Z.of_nat n = k mod b ^ Z.of_nat n.
  Proof.
    induction n as [|n IH]; intros j k E; [change (Z.of_nat 0) with 0; rewrite Z.pow_0_r, !Z.mod_1_r; reflexivity|].
    rewrite !radical_S in E. pose proof (radical_range n (j / b)) as R1. pose proof (radical_range n (k / b)) as R2.
    assert (Em : j mod b = k mod b).
    { rewrite (Z.div_unique (j mod b * b ^ Z.of_nat n + radical_inverse b n (j / b)) (b ^ Z.of_nat n) (j mod b) (radical_inverse b n (j / b))) by lia.
      rewrite E. symmetry. apply Z.div_unique with (radical_inverse b n (k / b)); lia. }
    assert (Er : radical_inverse b n (j / b) = radical_inverse b n (k / b)) by (rewrite Em in E; lia).
    apply IH in Er. rewrite pow_S, !Z.rem_mul_r by (pose proof (pow_pos n); lia). rewrite Em, Er. reflexivity.
  Qed.
  Lemma radical_mod n k : radical_inverse b n (k mod b ^ Z.of_nat n) = radical_inverse b n k.
  Proof.
    revert k. induction n as [|n IH]; intros k; [reflexivity|]. rewrite !radical_S, pow_S, Z.rem_mul_r by (pose proof (pow_pos n); lia).
    pose proof (Z.mod_pos_bound k b ltac:(lia)).
    rewrite <- (Z.div_unique (k mod b + b * ((k / b) mod b ^ Z.of_nat n)) b ((k / b) mod b ^ Z.of_nat n) (k mod b)) by lia.
    rewrite <- (Z.mod_unique (k mod b + b * ((k / b) mod b ^ Z.of_nat n)) b ((k / b) mod b ^ Z.of_nat n) (k mod b)) by lia.
    rewrite IH. reflexivity.
  Qed.
  (** The first j digits decide the interval. *)
  Lemma radical_prefix j : forall n k, (j <= n)%nat -> radical_inverse b n k / b ^ Z.of_nat (n - j) = radical_inverse b j k.
  Proof.
    induction j as [|j IH]; intros n k Hj.
    - rewrite Nat.sub_0_r. rewrite Z.div_small by apply radical_range. reflexivity.
    - destruct n as [|n]; [lia|]. cbn [Nat.sub]. rewrite !radical_S, <- (IH n (k / b)) by lia.
      replace (b ^ Z.of_nat n) with (b ^ Z.of_nat j * b ^ Z.of_nat (n - j)) by (rewrite <- Z.pow_add_r by lia; f_equal; lia).
      rewrite Z.mul_assoc, Z.div_add_l by (pose proof (pow_pos (n - j)); lia). reflexivity.
  Qed.

  Lemma radical_block n q m : Z.of_nat m = b ^ Z.of_nat n ->
    Permutation (map (fun i => radical_inverse b n (q * b ^ Z.of_nat n + Z.of_nat i)) (seq 0 m)) (zrange m).
  Proof.
    intros Hm. apply NoDup_Permutation_bis.
    - apply NoDup_map_in; [|apply seq_NoDup]. intros x y Hx Hy E. apply in_seq in Hx, Hy. apply radical_inj in E.
      rewrite !(Z.add_comm (q * _)), !Z_mod_plus_full, !Z.mod_small in E by lia. lia.
    - unfold zrange. rewrite !map_length. lia.
    - intros v Hv. apply in_map_iff in Hv as (i & <- & _). pose proof (radical_range n (q * b ^ Z.of_nat n + Z.of_nat i)) as R.
      unfold zrange. apply in_map_iff. exists (Z.to_nat (radical_inverse b n (q * b ^ Z.of_nat n + Z.of_nat i))). split; [lia|]. apply in_seq. lia.
  Qed.
  Lemma radical_stratified n j q m : (j <= n)%nat -> Z.of_nat m = b ^ Z.of_nat j ->
    Permutation (map (fun i => radical_inverse b n (q * b ^ Z.of_nat j + Z.of_nat i) / b ^ Z.of_nat (n - j)) (seq 0 m)) (zrange m).
  Proof.
    intros Hj Hm. erewrite map_ext; [exact (radical_block j q m Hm)|]. intros i. cbv beta. apply radical_prefix, Hj.
  Qed.

  (** The modules. *)
  Lemma halton_run wd n : b ^ Z.of_nat n <= p2 wd -> forall h k out,
    outs (halton_rtl b wd) (digs n k, out) h =
    firstn (length h) (out :: map (fun i => radical_inverse b n (k + Z.of_nat i)) (seq 0 (length h))).
  Proof.
    intros Hw. induction h as [|x h IH]; intros k out; [reflexivity|]. rewrite outs_cons. unfold halton_rtl at 2. cbn [fst snd].
    change (fst (halton_rtl b wd (digs n k, out) x)) with (halton_chain b 1 (digs n k), trunc wd (halton_value b (digs n k))).
    rewrite chain_1, value_digs. pose proof (radical_range n k). rewrite trunc_id by lia. rewrite IH. cbn [length firstn seq map]. f_equal.
    change (Z.of_nat 0) with 0. rewrite Z.add_0_r. rewrite <- seq_shift, map_map.
    erewrite (map_ext (fun i => radical_inverse b n (k + 1 + Z.of_nat i))); [reflexivity|]. intros i. cbv beta. f_equal. lia.
  Qed.
End Base.
Lemma halton2_run n h : forall k, outs halton2_rtl (digs 2 n k) h = map (fun i => radical_inverse 2 n (k + Z.of_nat i)) (seq 0 (length h)).
Proof.
  induction h as [|x h IH]; intros k; [reflexivity|]. rewrite outs_cons.
  change (halton2_rtl (digs 2 n k) x) with (halton_chain 2 1 (digs 2 n k), halton_value 2 (digs 2 n k)). cbn [fst snd].
  rewrite chain_1, value_digs by lia. cbn [length seq map]. change (Z.of_nat 0) with 0. rewrite Z.add_0_r. f_equal. rewrite IH, <- seq_shift, map_map.
  apply map_ext. intros i. cbv beta. f_equal. lia.
Qed.
Lemma halton2_outs n h : outs halton2_rtl (halton2_rtl_init n) h = map (fun k => radical_inverse 2 n (Z.of_nat k)) (seq 0 (length h)).
Proof. unfold halton2_rtl_init. rewrite <- (digs_0 2) by lia. exact (halton2_run n h 0). Qed.
Lemma halton_outs b wd n h : 2 <= b -> b ^ Z.of_nat n <= p2 wd ->
  outs (halton_rtl b wd) (halton_rtl_init n) h = delayed 0 (map (fun k => radical_inverse b n (Z.of_nat k)) (seq 0 (length h))).
Proof.
  intros Hb Hw. unfold halton_rtl_init. rewrite <- (digs_0 b Hb), (halton_run b Hb wd n Hw). unfold delayed. rewrite map_length, seq_length. reflexivity.
Qed.
