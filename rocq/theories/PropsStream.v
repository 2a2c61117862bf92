(** Properties of /repo/stream: generators and shufflers (C01-C04, C07-C12). *)
From Coq Require Import String.
Require Import Verif.BaseLemmas Verif.GenModel Verif.ShuffleModel.
Require Import Verif.SobolProof Verif.GenProof Verif.ShuffleProof.
Open Scope Z_scope.

(** ** C01 *)
Theorem C01_bsgen_full_period : forall w rng B start, perm_seq w rng ->
  (0 <= B <= p2 w -> ones (bsgen_stream B rng start (2 ^ w)) = B) /\
  (B < 0 -> bsgen_stream B rng start (2 ^ w) = repeat 0 (2 ^ w)) /\
  (p2 w < B -> bsgen_stream B rng start (2 ^ w) = repeat 1 (2 ^ w)).
Proof. exact bsgen_full. Qed.
Print Assumptions C01_bsgen_full_period.
Example C01_ex : perm_seq 2 [0; 2; 1; 3] /\ bsgen_stream 3 [0; 2; 1; 3] 5 4 = [1; 1; 0; 1].
Proof. split; [unfold perm_seq; cbn; do 2 constructor|reflexivity]. Qed.

(** ** C02 *)
Theorem C02_rng_permutation : forall ext name k w d,
  (w <= 30)%nat ->
  dirvec_ok 30 (ext_dirvec ext d) ->
  perm_seq w (ext_randperm ext) ->
  rng_parse name = Ok k -> k <> KLfsr ->
  exists l, rng_new ext name w d = Ok l /\ perm_seq w l /\
    (k = KAsc -> l = zrange (2 ^ w)) /\ (k = KDesc -> l = rev (zrange (2 ^ w))).
Proof. exact rng_permutation. Qed.
Print Assumptions C02_rng_permutation.

(** The van der Corput direction numbers (dimension 1 of every Sobol table) are admissible. *)
Definition ex_ext : rng_ext :=
  {| ext_dirvec := fun _ j => p2 (29 - j); ext_lfsr_next := fun s => match s with [a; b] => [(a + b) mod 2; a] | _ => s end;
     ext_lfsr_init := [1; 1]; ext_randperm := [2; 0; 3; 1] |}.
Example C02_ex :
  dirvec_ok 30 (ext_dirvec ex_ext 1) /\ perm_seq 2 (ext_randperm ex_ext) /\
  rng_parse "Sobol" = Ok KSobol /\ rng_new ex_ext "SoBoL" 3 1 = Ok [0; 4; 6; 2; 3; 7; 5; 1] /\
  rng_new ex_ext "tc10" 2 1 = Ok [3; 2; 1; 0] /\ rng_new ex_ext "xyz" 2 1 = Err AssertionError.
Proof.
  split; [|split].
  - intros j Hj. exists 1. split; [|split; [reflexivity|]].
    + rewrite Z.mul_1_l. reflexivity.
    + rewrite p2_S. pose proof (p2_pos j). lia.
  - unfold perm_seq. cbn. apply NoDup_Permutation.
    + repeat constructor; cbn; intuition discriminate.
    + repeat constructor; cbn; intuition discriminate.
    + intros x. cbn. tauto.
  - repeat split; vm_compute; reflexivity.
Qed.

(** ** C03 *)
Theorem C03_lfsr_entries : forall w next s0, let l := get_lfsr_seq w next s0 in
  length l = (2 ^ w)%nat /\ forall i, (i < 2 ^ w)%nat -> nth i l 0 = msb_value (iter_state next s0 i).
Proof. exact lfsr_entries. Qed.
Print Assumptions C03_lfsr_entries.
Theorem C03_lfsr_inexact : forall w next s0, (1 <= w)%nat -> lfsr_maximal w next s0 ->
  let l := get_lfsr_seq w next s0 in
  ~ In 0 l /\
  (forall v, 1 <= v < p2 w -> v <> msb_value s0 -> countb (Z.eqb v) l = 1) /\
  countb (Z.eqb (msb_value s0)) l = 2 /\
  (forall B start, 1 <= B <= p2 w ->
     ones (bsgen_stream B l start (2 ^ w)) = if msb_value s0 <? B then B else B - 1).
Proof. exact lfsr_counts. Qed.
Print Assumptions C03_lfsr_inexact.

Theorem C03_lfsr_not_exact : forall w next s0, (1 <= w)%nat -> lfsr_maximal w next s0 ->
  exists B, 0 <= B <= p2 w /\
    forall start, ones (bsgen_stream B (get_lfsr_seq w next s0) start (2 ^ w)) <> B.
Proof. exact lfsr_not_exact. Qed.
Print Assumptions C03_lfsr_not_exact.

Example C03_ex : lfsr_maximal 2 (ext_lfsr_next ex_ext) (ext_lfsr_init ex_ext) /\
  rng_new ex_ext "LFSR" 2 1 = Ok [3; 1; 2; 3].
Proof.
  assert (H3 : forall i, In (iter_state (ext_lfsr_next ex_ext) [1; 1] i) [[1; 1]; [0; 1]; [1; 0]]).
  { induction i as [|i IH]; [left; reflexivity|]. cbn [iter_state].
    destruct IH as [E|[E|[E|[]]]]; rewrite <- E; cbn; auto. }
  split; [|vm_compute; reflexivity]. cbn [ext_lfsr_init ex_ext]. split; [|split; [|split]].
  - intros i. destruct (H3 i) as [E|[E|[E|[]]]]; rewrite <- E; split; try reflexivity;
      repeat constructor; unfold bit; lia.
  - intros i Hi. destruct (H3 i) as [E|[E|[E|[]]]]; rewrite <- E;
      [left|right; left|left]; reflexivity.
  - intros i j Hi Hj. cbn in Hi, Hj.
    assert (Ei : (i = 0 \/ i = 1 \/ i = 2)%nat) by lia. assert (Ej : (j = 0 \/ j = 1 \/ j = 2)%nat) by lia.
    destruct Ei as [-> | [-> | ->]]; destruct Ej as [-> | [-> | ->]]; cbn; intros E; try reflexivity; discriminate.
  - reflexivity.
Qed.

(** ** C04 *)
Theorem C04_bingen : forall m w,
  (forall s, src_ok m s -> 0 <= bingen m w s <= p2 w) /\
  (forall s, rounds_to (match m with Unipolar => s | Bipolar => (s + 1) / 2 end * inject_Z (p2 w))%Q (bingen m w s)) /\
  (forall s, (Qabs (grid_value m w (bingen m w s) - s) <= grid_step m w / 2)%Q) /\
  (forall s1 s2, (s1 <= s2)%Q -> bingen m w s1 <= bingen m w s2) /\
  (forall b s, (s == grid_value m w b)%Q -> bingen m w s = b).
Proof. exact bingen_all. Qed.
Print Assumptions C04_bingen.
Example C04_ex : src_ok Bipolar (-(3#10)) /\ bingen Bipolar 3 (-(3#10)) = 3 /\ bingen Unipolar 3 (5#16) = 2.
Proof. repeat split; vm_compute; congruence. Qed.

(** ** C07 *)
Theorem C07_temporal_shape : forall w (b : nat) ext d, (b <= 2 ^ w)%nat ->
  bsgen_stream (Z.of_nat b) (rng_seq ext KAsc w d) 0 (2 ^ w) = repeat 1 b ++ repeat 0 (2 ^ w - b) /\
  bsgen_stream (Z.of_nat b) (rng_seq ext KDesc w d) 0 (2 ^ w) = repeat 0 (2 ^ w - b) ++ repeat 1 b.
Proof. exact temporal_shape. Qed.
Print Assumptions C07_temporal_shape.
Example C07_ex : (5 <= 2 ^ 3)%nat /\ rng_parse "race" = Ok KAsc /\ rng_parse "tc10" = Ok KDesc /\
  bsgen_stream 5 (rng_seq ex_ext KDesc 3 1) 0 8 = [0; 0; 0; 1; 1; 1; 1; 1].
Proof. repeat split; try reflexivity. cbn. lia. Qed.

(** ** C08 *)
Theorem C08_rawscale_range : forall q raw out, rawscale q raw = Some out ->
  length out = length raw /\ Forall (fun y => -(1) <= y <= 1)%Q out /\
  (forall i j, (i < length raw)%nat -> (j < length raw)%nat ->
     (nth i raw 0 <= nth j raw 0)%Q -> (nth i out 0 <= nth j out 0)%Q).
Proof. exact rawscale_range. Qed.
Print Assumptions C08_rawscale_range.

Theorem C08_rawscale_full : forall raw m, raw <> [] -> is_max_abs raw m ->
  ((m == 0)%Q -> rawscale 1 raw = None) /\
  (~ (m == 0)%Q -> exists out, rawscale 1 raw = Some out /\ Forall2 (fun x y => (y == x / m)%Q) raw out).
Proof. exact rawscale_full. Qed.
Print Assumptions C08_rawscale_full.

Theorem C08_rawscale_defined : forall q raw,
  let lo := quantile raw ((1#2) - q / 2)%Q in
  let hi := quantile raw ((1#2) + q / 2)%Q in
  (rawscale q raw = None <-> (lo == 0 /\ hi == 0)%Q) /\
  (forall out, rawscale q raw = Some out ->
     Forall2 (fun x y => (y == qclamp lo hi x / qmax (Qabs lo) (Qabs hi))%Q) raw out).
Proof. exact rawscale_defined. Qed.
Print Assumptions C08_rawscale_defined.

Example C08_ex : is_max_abs [1; -(4#1); 2]%Q 4 /\ rawscale_new 1 = Ok 1%Q /\
  (exists out, rawscale 1 [1; -(4#1); 2]%Q = Some out /\ Forall2 Qeq out [1#4; -(1#1); 1#2]%Q).
Proof.
  split; [|split; [reflexivity|eexists; split; [vm_compute; reflexivity|repeat constructor]]].
  split; [exists (-(4#1))%Q; split; [cbn; tauto|reflexivity]|repeat constructor; vm_compute; congruence].
Qed.

(** ** C09 *)
Theorem C09_skewed_conserves : forall depth h, Forall bitpair h ->
  let cnt := final (skewedsync_step depth) skewedsync_init h in
  let o := outs (skewedsync_step depth) skewedsync_init h in
  0 <= cnt <= p2 depth - 1 /\ Forall bitpair o /\ map snd o = map snd h /\
  ones (map fst o) + cnt = ones (map fst h).
Proof. exact skewed_inv. Qed.
Print Assumptions C09_skewed_conserves.
Example C09_ex : let h := [(1, 0); (1, 0); (0, 1); (1, 1)] in Forall bitpair h /\
  outs (skewedsync_step 2) skewedsync_init h = [(0, 0); (0, 0); (1, 1); (1, 1)] /\
  final (skewedsync_step 2) skewedsync_init h = 1.
Proof. split; [repeat constructor; cbn; unfold bit; lia|split; reflexivity]. Qed.

(** ** C10 *)
Theorem C10_skewed_overlap : forall depth h, Forall bitpair h ->
  (forall a b c, h = a ++ b ++ c -> excess b <= p2 depth - 1) <->
  Forall overlapped (outs (skewedsync_step depth) skewedsync_init h).
Proof. exact skewed_overlap. Qed.
Print Assumptions C10_skewed_overlap.

Theorem C10_skewed_full_only : forall depth h k, Forall bitpair h -> (k < length h)%nat ->
  let o := nth k (outs (skewedsync_step depth) skewedsync_init h) (0, 0) in
  fst o = 1 -> snd o = 0 -> final (skewedsync_step depth) skewedsync_init (firstn k h) = p2 depth - 1.
Proof. exact skewed_full_only. Qed.
Print Assumptions C10_skewed_full_only.

Example C10_ex : let h := [(1, 0); (0, 1); (1, 1)] in Forall bitpair h /\
  Forall overlapped (outs (skewedsync_step 1) skewedsync_init h) /\
  ~ Forall overlapped (outs (skewedsync_step 1) skewedsync_init [(1, 0); (1, 0)]).
Proof.
  split; [repeat constructor; cbn; unfold bit; lia|]. split.
  - cbn. repeat constructor; unfold overlapped; cbn; lia.
  - cbn. intros H. inversion H as [|? ? _ H1]; subst. inversion H1 as [|? ? H2 _]; subst.
    unfold overlapped in H2. cbn in H2. specialize (H2 eq_refl). discriminate.
Qed.

(** ** C11; depth = d2 + 2. *)
Theorem C11_bi2uni_running_max : forall d2 xs, bits xs ->
  let o := outs (bi2uni_step d2) bi2uni_init xs in
  bits o /\ Forall2 (fun y x => y <= x) o xs /\
  max_over_prefixes walk xs <= ones o /\
  ((forall k, max_over_prefixes walk (firstn k xs) - walk (firstn k xs) <= p2 d2) ->
   ones o = max_over_prefixes walk xs).
Proof. exact bi2uni_running_max. Qed.
Print Assumptions C11_bi2uni_running_max.

(** What saturation adds: one emitted one for each input zero that arrives at the bottom of the accumulator. *)
Theorem C11_bi2uni_balance : forall d2 xs, bits xs ->
  let acc := final (bi2uni_step d2) bi2uni_init xs in
  let o := outs (bi2uni_step d2) bi2uni_init xs in
  let lost := countb (fun k => (final (bi2uni_step d2) bi2uni_init (firstn k xs) =? - p2 d2) && (nth k xs 0 =? 0))
                     (seq 0 (length xs)) in
  - p2 d2 <= acc <= 0 /\ ones o + acc = walk xs + lost.
Proof. exact bi2uni_lost. Qed.
Print Assumptions C11_bi2uni_balance.

Example C11_ex : let xs := [1; 0; 0; 1; 1; 1] in bits xs /\
  (forall k, max_over_prefixes walk (firstn k xs) - walk (firstn k xs) <= p2 1) /\
  outs (bi2uni_step 1) bi2uni_init xs = [1; 0; 0; 0; 0; 1] /\
  (* without the condition more ones are emitted *)
  ones (outs (bi2uni_step 0) bi2uni_init [0; 0; 1; 1]) = 1 /\ max_over_prefixes walk [0; 0; 1; 1] = 0.
Proof.
  split; [repeat constructor; unfold bit; lia|]. split.
  - intros [|[|[|[|[|[|k]]]]]]; cbn [firstn]; rewrite ?firstn_nil; vm_compute; discriminate.
  - repeat split; reflexivity.
Qed.

(** ** C12; depth = d2 + 2. *)
Theorem C12_uni2bi_floor : forall d2 xs, (2 <= d2)%nat -> bits xs ->
  bits (outs (uni2bi_step d2) uni2bi_init xs) /\
  ones (outs (uni2bi_step d2) uni2bi_init xs) = (zlen xs + ones xs) / 2.
Proof. exact uni2bi_full. Qed.
Print Assumptions C12_uni2bi_floor.

Theorem C12_uni2bi_depth3_refuted : exists xs, bits xs /\
  ones (outs (uni2bi_step 1) uni2bi_init xs) <> (zlen xs + ones xs) / 2.
Proof. exact uni2bi_depth3_refuted. Qed.
Print Assumptions C12_uni2bi_depth3_refuted.

Theorem C12_uni2bi_depth2_dead : forall xs, bits xs ->
  outs (uni2bi_step 0) uni2bi_init xs = repeat 0 (length xs).
Proof. exact uni2bi_depth2_dead. Qed.
Print Assumptions C12_uni2bi_depth2_dead.
Example C12_ex : bits [0; 1; 1; 0; 1] /\ outs (uni2bi_step 2) uni2bi_init [0; 1; 1; 0; 1] = [0; 1; 1; 1; 1].
Proof. split; [repeat constructor; unfold bit; lia|reflexivity]. Qed.
