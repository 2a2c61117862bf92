(** Proofs about /repo/stream/shuffle.py. *)
Require Import Verif.BaseLemmas Verif.ShuffleModel.
Open Scope Z_scope.

(** ** SkewedSync *)
Lemma skewed_step_facts depth cnt in1 in2 : bit in1 -> bit in2 -> 0 <= cnt <= p2 depth - 1 ->
  forall cnt' o1 o2, skewedsync_step depth cnt (in1, in2) = (cnt', (o1, o2)) ->
  0 <= cnt' <= p2 depth - 1 /\ bit o1 /\ o2 = in2 /\ o1 + cnt' = in1 + cnt /\
  (o1 = 1 -> o2 = 0 -> cnt = p2 depth - 1) /\
  (o1 = 0 -> o2 = 1 -> cnt = 0) /\
  (in2 = 1 -> cnt' = Z.max 0 (cnt + in1 - 1)) /\
  (in2 = 0 -> cnt' = Z.min (p2 depth - 1) (cnt + in1)).
Proof.
  intros H1 H2 Hc cnt' o1 o2 E. unfold skewedsync_step, zclamp in E.
  pose proof (p2_pos depth) as Hp.
  pose proof (f_equal fst E) as E1. pose proof (f_equal (fun p => fst (snd p)) E) as E2.
  pose proof (f_equal (fun p => snd (snd p)) E) as E3. clear E. cbn [fst snd] in E1, E2, E3. subst o2.
  destruct H1 as [-> | ->], H2 as [-> | ->]; 
    change (b2z (0 + 0 =? 1)) with 0 in *; change (b2z (0 + 1 =? 1)) with 1 in *;
    change (b2z (1 + 0 =? 1)) with 1 in *; change (b2z (1 + 1 =? 1)) with 0 in *;
    destruct (Z.eqb_spec cnt 0) as [Z0|Z0]; destruct (Z.eqb_spec cnt (p2 depth - 1)) as [ZM|ZM]; cbn [negb b2z] in *;
    unfold bit; lia.
Qed.

Lemma skewed_step_eq depth cnt p : exists cnt' o1, skewedsync_step depth cnt p = (cnt', (o1, snd p)).
Proof. destruct p as [a b]. unfold skewedsync_step. eexists; eexists; reflexivity. Qed.

Lemma skewed_inv depth h : Forall bitpair h ->
  let cnt := final (skewedsync_step depth) skewedsync_init h in
  let o := outs (skewedsync_step depth) skewedsync_init h in
  0 <= cnt <= p2 depth - 1 /\ Forall bitpair o /\ map snd o = map snd h /\
  ones (map fst o) + cnt = ones (map fst h).
Proof.
  induction h as [|p h IH] using rev_ind; intros Hb.
  - cbn. pose proof (p2_pos depth). repeat split; try constructor; unfold skewedsync_init; lia.
  - apply Forall_app in Hb. destruct Hb as [Hb Hp]. inversion Hp as [|? ? [Hp1 Hp2] _]; subst.
    destruct (IH Hb) as (Hc & Ho & Hs & Hn). cbn zeta. rewrite final_snoc, outs_snoc.
    set (cnt := final (skewedsync_step depth) skewedsync_init h) in *.
    set (o := outs (skewedsync_step depth) skewedsync_init h) in *.
    destruct p as [in1 in2]. cbn [fst snd] in *.
    destruct (skewedsync_step depth cnt (in1, in2)) as [cnt' [o1 o2]] eqn:E.
    destruct (skewed_step_facts depth cnt in1 in2 Hp1 Hp2 Hc _ _ _ E) as (A1 & A2 & A3 & A4 & _).
    cbn [fst snd]. rewrite !map_app. cbn [map fst snd]. rewrite !ones_snoc by assumption.
    split; [exact A1|]. split; [apply Forall_app; split; [exact Ho|constructor; [split; cbn; [exact A2|subst; exact Hp2]|constructor]]|].
    split; [rewrite Hs, A3; reflexivity|]. lia.
Qed.

(** Run from an arbitrary counter value. *)
Lemma skewed_inv_from depth h : Forall bitpair h -> forall cnt, 0 <= cnt <= p2 depth - 1 ->
  let cnt' := final (skewedsync_step depth) cnt h in
  let o := outs (skewedsync_step depth) cnt h in
  0 <= cnt' <= p2 depth - 1 /\ Forall bitpair o /\ map snd o = map snd h /\
  ones (map fst o) + cnt' = ones (map fst h) + cnt.
Proof.
  induction h as [|p h IH] using rev_ind; intros Hb cnt0 Hc0.
  - cbn. repeat split; try constructor; lia.
  - apply Forall_app in Hb. destruct Hb as [Hb Hp]. inversion Hp as [|? ? [Hp1 Hp2] _]; subst.
    destruct (IH Hb cnt0 Hc0) as (Hc & Ho & Hs & Hn). cbn zeta. rewrite final_snoc, outs_snoc.
    set (cnt := final (skewedsync_step depth) cnt0 h) in *.
    set (o := outs (skewedsync_step depth) cnt0 h) in *.
    destruct p as [in1 in2]. cbn [fst snd] in *.
    destruct (skewedsync_step depth cnt (in1, in2)) as [cnt' [o1 o2]] eqn:E.
    destruct (skewed_step_facts depth cnt in1 in2 Hp1 Hp2 Hc _ _ _ E) as (A1 & A2 & A3 & A4 & _).
    cbn [fst snd]. rewrite !map_app. cbn [map fst snd]. rewrite !ones_snoc by assumption.
    split; [exact A1|]. split; [apply Forall_app; split; [exact Ho|constructor; [split; cbn; [exact A2|subst; exact Hp2]|constructor]]|].
    split; [rewrite Hs, A3; reflexivity|]. lia.
Qed.

Lemma excess_app a b : excess (a ++ b) = excess a + excess b.
Proof. unfold excess. rewrite !map_app, !ones_app. lia. Qed.

(** The counter never exceeds the excess of some suffix. *)
Lemma skewed_suffix depth h : Forall bitpair h ->
  exists a b, h = a ++ b /\ final (skewedsync_step depth) skewedsync_init h <= excess b.
Proof.
  induction h as [|p h IH] using rev_ind; intros Hb.
  - exists [], []. split; [reflexivity|]. cbn. unfold skewedsync_init. lia.
  - pose proof Hb as Hb'. apply Forall_app in Hb'. destruct Hb' as [Hb' Hp].
    inversion Hp as [|? ? [Hp1 Hp2] _]; subst.
    destruct (skewed_inv depth h Hb') as (Hc & _).
    destruct (IH Hb') as (a & b & -> & Hle). rewrite final_snoc.
    set (cnt := final (skewedsync_step depth) skewedsync_init (a ++ b)) in *.
    destruct p as [in1 in2]. cbn [fst snd] in *.
    destruct (skewedsync_step depth cnt (in1, in2)) as [cnt' [o1 o2]] eqn:E.
    destruct (skewed_step_facts depth cnt in1 in2 Hp1 Hp2 Hc _ _ _ E) as (A1 & _ & _ & _ & _ & _ & A2 & A3).
    cbn [fst].
    assert (Hex : excess (b ++ [(in1, in2)]) = excess b + (in1 - in2)).
    { rewrite excess_app. f_equal. unfold excess. cbn [map fst snd]. rewrite !ones_bit by assumption. reflexivity. }
    destruct (Z.le_gt_cases cnt' (excess (b ++ [(in1, in2)]))) as [L|G].
    + exists a, (b ++ [(in1, in2)]). split; [symmetry; apply app_assoc|exact L].
    + exists ((a ++ b) ++ [(in1, in2)]), []. split; [symmetry; apply app_nil_r|].
      cbn. destruct Hp2 as [-> | ->]; [specialize (A3 eq_refl); lia|specialize (A2 eq_refl); lia].
Qed.

Lemma skewed_overlap depth h : Forall bitpair h ->
  (forall a b c, h = a ++ b ++ c -> excess b <= p2 depth - 1) <->
  Forall overlapped (outs (skewedsync_step depth) skewedsync_init h).
Proof.
  intros Hb. split.
  - induction h as [|p h IH] using rev_ind; intros Hseg; [constructor|].
    pose proof Hb as Hb'. apply Forall_app in Hb'. destruct Hb' as [Hb' Hp].
    inversion Hp as [|? ? [Hp1 Hp2] _]; subst.
    rewrite outs_snoc. apply Forall_app. split.
    + apply IH; [exact Hb'|]. intros a b c E. apply (Hseg a b (c ++ [p])). rewrite E, <- !app_assoc. reflexivity.
    + constructor; [|constructor].
      destruct (skewed_inv depth h Hb') as (Hc & _).
      destruct (skewed_suffix depth h Hb') as (a & b & E & Hle).
      set (cnt := final (skewedsync_step depth) skewedsync_init h) in *.
      destruct p as [in1 in2]. cbn [fst snd] in *.
      destruct (skewedsync_step depth cnt (in1, in2)) as [cnt' [o1 o2]] eqn:Es.
      destruct (skewed_step_facts depth cnt in1 in2 Hp1 Hp2 Hc _ _ _ Es) as (A1 & A2 & A3 & A4 & A5 & A6 & A7 & A8).
      intros Ho. cbn [fst snd] in *. subst o2. destruct Hp2 as [E2|E2]; [exfalso|exact E2].
      specialize (A5 Ho E2). specialize (A8 E2).
      specialize (Hseg a (b ++ [(in1, in2)]) []).
      rewrite app_nil_r, excess_app in Hseg. subst h.
      specialize (Hseg ltac:(rewrite <- app_assoc; reflexivity)).
      assert (excess [(in1, in2)] = in1 - in2).
      { unfold excess. cbn [map fst snd]. rewrite !ones_bit; [reflexivity|left; exact E2|exact Hp1]. }
      lia.
  - intros Ho a b c E. subst h.
    apply Forall_app in Hb. destruct Hb as [Ha Hb]. apply Forall_app in Hb. destruct Hb as [Hb _].
    rewrite outs_app, outs_app in Ho. apply Forall_app in Ho. destruct Ho as [_ Ho]. apply Forall_app in Ho. destruct Ho as [Ho _].
    destruct (skewed_inv depth a Ha) as (Hc & _).
    destruct (skewed_inv_from depth b Hb _ Hc) as (Hc' & Hbo & Hs & Hn).
    set (o := outs (skewedsync_step depth) (final (skewedsync_step depth) skewedsync_init a) b) in *.
    assert (ones (map fst o) <= ones (map snd o)).
    { clear -Ho Hbo. induction o as [|[x y] o IH]; [cbn; lia|].
      inversion Ho as [|? ? Hxy Ho']; subst. inversion Hbo as [|? ? [Hx Hy] Hbo']; subst.
      cbn [map fst snd] in *. rewrite !ones_cons. specialize (IH Ho' Hbo'). unfold overlapped in Hxy. cbn [fst snd] in *.
      destruct (Z.eqb_spec 1 x) as [<-|]; [rewrite (Hxy eq_refl), Z.eqb_refl; lia|destruct (1 =? y); lia]. }
    rewrite Hs in H. unfold excess. lia.
Qed.

Lemma skewed_full_only depth h k : Forall bitpair h -> (k < length h)%nat ->
  let o := nth k (outs (skewedsync_step depth) skewedsync_init h) (0, 0) in
  fst o = 1 -> snd o = 0 -> final (skewedsync_step depth) skewedsync_init (firstn k h) = p2 depth - 1.
Proof.
  intros Hb Hk.
  assert (E : h = firstn k h ++ nth k h (0, 0) :: skipn (S k) h).
  { rewrite <- (firstn_skipn k h) at 1. f_equal. clear Hb. revert h Hk.
    induction k as [|k IH]; intros [|x h] Hk; cbn [length] in Hk; try lia; [reflexivity|]. cbn [skipn nth]. apply IH. lia. }
  assert (Hbk : Forall bitpair (firstn k h)) by (rewrite E in Hb; apply Forall_app in Hb; apply Hb).
  assert (Hp : bitpair (nth k h (0, 0))).
  { rewrite Forall_forall in Hb. apply Hb, nth_In, Hk. }
  destruct (skewed_inv depth _ Hbk) as (Hc & _).
  cbn zeta. rewrite E at 1 2. rewrite outs_app.
  rewrite app_nth2; rewrite outs_length, firstn_length, Nat.min_l by lia; [|lia].
  rewrite Nat.sub_diag. rewrite outs_cons. cbn [nth].
  set (cnt := final (skewedsync_step depth) skewedsync_init (firstn k h)) in *.
  destruct (nth k h (0, 0)) as [in1 in2]. destruct Hp as [Hp1 Hp2]. cbn [fst snd] in *.
  destruct (skewedsync_step depth cnt (in1, in2)) as [cnt' [o1 o2]] eqn:Es.
  destruct (skewed_step_facts depth cnt in1 in2 Hp1 Hp2 Hc _ _ _ Es) as (_ & _ & _ & _ & A5 & _).
  cbn [fst snd]. exact A5.
Qed.

(** ** Bi2Uni *)
Lemma bi2uni_step_facts d2 acc x acc' o : bit x -> - p2 d2 <= acc <= 0 ->
  bi2uni_step d2 acc x = (acc', o) ->
  - p2 d2 <= acc' <= 0 /\ bit o /\ (o = 1 <-> (acc = 0 /\ x = 1)) /\
  acc' = Z.max (- p2 d2) (acc + (2 * x - 1) - o).
Proof.
  intros Hx Ha E. unfold bi2uni_step, zclamp in E. pose proof (p2_pos d2) as Hp.
  pose proof (f_equal fst E) as E1. pose proof (f_equal snd E) as E2. clear E. cbn [fst snd] in E1, E2.
  destruct (Z.geb_spec (Z.min (Z.max (acc + (x * 2 - 1)) (- p2 d2)) (p2 d2)) 1); cbn [b2z] in *;
    unfold bit; destruct Hx as [-> | ->]; repeat split; try lia.
Qed.

Definition b2u_out d2 xs := outs (bi2uni_step d2) bi2uni_init xs.
Definition b2u_acc d2 xs := final (bi2uni_step d2) bi2uni_init xs.

Lemma bi2uni_inv d2 xs : bits xs ->
  - p2 d2 <= b2u_acc d2 xs <= 0 /\ bits (b2u_out d2 xs) /\
  Forall2 (fun o x => o <= x) (b2u_out d2 xs) xs /\
  walk xs - ones (b2u_out d2 xs) <= b2u_acc d2 xs.
Proof.
  induction xs as [|x xs IH] using rev_ind; intros Hb.
  - cbn. pose proof (p2_pos d2). repeat split; try constructor; unfold bi2uni_init; lia.
  - apply bits_snoc in Hb. destruct Hb as [Hb Hx]. destruct (IH Hb) as (Ha & Ho & Hf & Hw).
    unfold b2u_acc, b2u_out in *. rewrite final_snoc, outs_snoc.
    set (acc := final (bi2uni_step d2) bi2uni_init xs) in *.
    destruct (bi2uni_step d2 acc x) as [acc' o] eqn:E.
    destruct (bi2uni_step_facts d2 acc x acc' o Hx Ha E) as (B1 & B2 & B3 & B4). cbn [fst snd].
    split; [exact B1|]. split; [apply bits_snoc; split; assumption|]. split.
    + apply Forall2_app; [exact Hf|]. constructor; [|constructor].
      destruct B2 as [->| ->]; [destruct Hx as [->| ->]; lia|]. destruct (proj1 B3 eq_refl). lia.
    + rewrite walk_snoc, ones_snoc by assumption. lia.
Qed.

Lemma bi2uni_ge_max d2 xs : bits xs -> max_over_prefixes walk xs <= ones (b2u_out d2 xs).
Proof.
  induction xs as [|x xs IH] using rev_ind; intros Hb; [cbn; lia|].
  pose proof (bi2uni_inv d2 (xs ++ [x]) Hb) as (Ha & _ & _ & Hw).
  apply bits_snoc in Hb. destruct Hb as [Hb Hx]. specialize (IH Hb).
  rewrite max_prefixes_snoc.
  assert (ones (b2u_out d2 xs) <= ones (b2u_out d2 (xs ++ [x]))).
  { unfold b2u_out. rewrite outs_snoc, ones_app. pose proof (ones_nonneg [snd (bi2uni_step d2 (final (bi2uni_step d2) bi2uni_init xs) x)]). lia. }
  lia.
Qed.

Lemma bi2uni_exact d2 xs : bits xs ->
  (forall k, max_over_prefixes walk (firstn k xs) - walk (firstn k xs) <= p2 d2) ->
  ones (b2u_out d2 xs) = max_over_prefixes walk xs /\
  b2u_acc d2 xs = walk xs - max_over_prefixes walk xs.
Proof.
  induction xs as [|x xs IH] using rev_ind; intros Hb Hd; [split; reflexivity|].
  apply bits_snoc in Hb. destruct Hb as [Hb Hx].
  destruct IH as [IH1 IH2]; [exact Hb| |].
  { intros k. destruct (Nat.le_gt_cases k (length xs)) as [L|G].
    - specialize (Hd k). rewrite firstn_app in Hd. replace (k - length xs)%nat with 0%nat in Hd by lia.
      cbn [firstn] in Hd. rewrite app_nil_r in Hd. exact Hd.
    - specialize (Hd (length xs)). rewrite firstn_app, Nat.sub_diag, firstn_all in Hd. cbn [firstn] in Hd.
      rewrite app_nil_r in Hd. rewrite firstn_all2 by lia. exact Hd. }
  pose proof (bi2uni_inv d2 xs Hb) as (Ha & Ho & _ & _).
  specialize (Hd (length (xs ++ [x]))). rewrite firstn_all in Hd.
  unfold b2u_acc, b2u_out in *. rewrite final_snoc, outs_snoc.
  set (acc := final (bi2uni_step d2) bi2uni_init xs) in *.
  destruct (bi2uni_step d2 acc x) as [acc' o] eqn:E.
  destruct (bi2uni_step_facts d2 acc x acc' o Hx Ha E) as (B1 & B2 & B3 & B4). cbn [fst snd].
  rewrite max_prefixes_snoc in *. rewrite walk_snoc in * by exact Hx. rewrite ones_snoc by exact B2.
  assert (Hmax : walk xs <= max_over_prefixes walk xs).
  { rewrite <- (firstn_all xs) at 1. apply max_prefixes_bound. }
  destruct Hx as [-> | ->].
  - assert (o = 0) by (destruct B2 as [E2|E2]; [exact E2|destruct (proj1 B3 E2); lia]). lia.
  - destruct (Z.eq_dec acc 0) as [Z0|Z0].
    + assert (o = 1) by (apply B3; split; [exact Z0|reflexivity]). lia.
    + assert (o = 0) by (destruct B2 as [E2|E2]; [exact E2|destruct (proj1 B3 E2); lia]). lia.
Qed.

(** Ones lost in saturation: input zeros arriving while the accumulator is at its minimum. *)
Fixpoint sat_zeros (d2 : nat) (acc : Z) (xs : list Z) : Z :=
  match xs with
  | [] => 0
  | x :: r => (if (acc =? - p2 d2) && (x =? 0) then 1 else 0) + sat_zeros d2 (fst (bi2uni_step d2 acc x)) r
  end.

Lemma sat_zeros_snoc d2 acc xs x :
  sat_zeros d2 acc (xs ++ [x]) = sat_zeros d2 acc xs +
    (if (final (bi2uni_step d2) acc xs =? - p2 d2) && (x =? 0) then 1 else 0).
Proof.
  revert acc; induction xs as [|y r IH]; intros acc; cbn [app sat_zeros]; [cbn [final run fst]; lia|].
  rewrite IH, final_cons. lia.
Qed.

Lemma bi2uni_balance d2 xs : bits xs ->
  ones (b2u_out d2 xs) + b2u_acc d2 xs = walk xs + sat_zeros d2 bi2uni_init xs.
Proof.
  induction xs as [|x xs IH] using rev_ind; intros Hb; [reflexivity|].
  apply bits_snoc in Hb. destruct Hb as [Hb Hx]. specialize (IH Hb).
  pose proof (bi2uni_inv d2 xs Hb) as (Ha & Ho & _ & _).
  rewrite sat_zeros_snoc. unfold b2u_acc, b2u_out in *. rewrite final_snoc, outs_snoc.
  set (acc := final (bi2uni_step d2) bi2uni_init xs) in *.
  destruct (bi2uni_step d2 acc x) as [acc' o] eqn:E.
  destruct (bi2uni_step_facts d2 acc x acc' o Hx Ha E) as (B1 & B2 & B3 & B4). cbn [fst snd].
  rewrite walk_snoc by exact Hx. rewrite ones_snoc by exact B2.
  pose proof (p2_pos d2) as Hp.
  destruct (Z.eqb_spec acc (- p2 d2)) as [Em|Em]; destruct (Z.eqb_spec x 0) as [Ex|Ex]; cbn [andb];
    destruct Hx as [->| ->]; try lia; destruct B2 as [Eo|Eo]; try lia; destruct (proj1 B3 Eo); lia.
Qed.

(** ** Uni2Bi *)
Lemma uni2bi_inv d2 xs : (2 <= d2)%nat -> bits xs ->
  let acc := final (uni2bi_step d2) uni2bi_init xs in
  let o := outs (uni2bi_step d2) uni2bi_init xs in
  bit acc /\ bits o /\ 2 * ones o + acc = zlen xs + ones xs.
Proof.
  intros Hd. pose proof (p2_le 2 d2 Hd) as Hp. change (p2 2) with 4 in Hp.
  induction xs as [|x xs IH] using rev_ind; intros Hb.
  - cbn. repeat split; [left; reflexivity|constructor].
  - apply bits_snoc in Hb. destruct Hb as [Hb Hx]. destruct (IH Hb) as (Ha & Ho & Hn).
    cbn zeta. rewrite final_snoc, outs_snoc, zlen_snoc, (ones_snoc xs x) by exact Hx.
    set (acc := final (uni2bi_step d2) uni2bi_init xs) in *.
    set (o := outs (uni2bi_step d2) uni2bi_init xs) in *.
    unfold uni2bi_step, zclamp. cbn [zsum fst snd].
    assert (Ec : Z.min (Z.max (acc + (x + (1 + 0))) (- p2 d2)) (p2 d2) = acc + x + 1)
      by (destruct Ha as [->| ->], Hx as [->| ->]; lia).
    rewrite Ec. rewrite ones_app, ones_bit by apply bit_b2z.
    split; [|split; [apply bits_snoc; split; [exact Ho|apply bit_b2z]|]].
    + unfold bit. destruct (Z.geb_spec (acc + x + 1) 2); cbn [b2z]; destruct Ha as [->| ->], Hx as [->| ->]; lia.
    + lia.
Qed.

Lemma uni2bi_floor d2 xs : (2 <= d2)%nat -> bits xs ->
  ones (outs (uni2bi_step d2) uni2bi_init xs) = (zlen xs + ones xs) / 2.
Proof.
  intros Hd Hb. destruct (uni2bi_inv d2 xs Hd Hb) as (Ha & _ & Hn).
  apply Z.div_unique with (r := final (uni2bi_step d2) uni2bi_init xs); [|lia].
  left. destruct Ha as [E|E]; rewrite E; lia.
Qed.

(** With depth 2 the bound is 1 < 2, so nothing is ever emitted. *)
Lemma uni2bi_depth2_dead xs : bits xs ->
  outs (uni2bi_step 0) uni2bi_init xs = repeat 0 (length xs).
Proof.
  assert (G : forall xs acc, acc <= 1 -> outs (uni2bi_step 0) acc xs = repeat 0 (length xs)).
  { clear. induction xs as [|x xs IH]; intros acc Ha; [reflexivity|].
    rewrite outs_cons. cbn [length repeat].
    assert (E : uni2bi_step 0 acc x = (Z.min (Z.max (acc + zsum [x; 1]) (-1)) 1, 0)).
    { unfold uni2bi_step. change (p2 0) with 1. unfold zclamp.
      destruct (Z.geb_spec (Z.min (Z.max (acc + zsum [x; 1]) (- (1))) 1) 2) as [G|L]; [lia|].
      cbn [b2z]. f_equal. change (-1) with (- (1)). lia. }
    rewrite E. cbn [fst snd]. f_equal. apply IH. lia. }
  intros _. apply G. unfold uni2bi_init. lia.
Qed.

Lemma uni2bi_full d2 xs : (2 <= d2)%nat -> bits xs ->
  bits (outs (uni2bi_step d2) uni2bi_init xs) /\
  ones (outs (uni2bi_step d2) uni2bi_init xs) = (zlen xs + ones xs) / 2.
Proof. intros Hd Hb. split; [apply (uni2bi_inv d2 xs Hd Hb)|apply uni2bi_floor; assumption]. Qed.

Lemma uni2bi_depth3_refuted : exists xs, bits xs /\
  ones (outs (uni2bi_step 1) uni2bi_init xs) <> (zlen xs + ones xs) / 2.
Proof. exists [0; 1; 0]. split; [repeat constructor; unfold bit; lia|vm_compute; discriminate]. Qed.

Lemma bi2uni_running_max d2 xs : bits xs ->
  let o := outs (bi2uni_step d2) bi2uni_init xs in
  bits o /\ Forall2 (fun y x => y <= x) o xs /\
  max_over_prefixes walk xs <= ones o /\
  ((forall k, max_over_prefixes walk (firstn k xs) - walk (firstn k xs) <= p2 d2) ->
   ones o = max_over_prefixes walk xs).
Proof.
  intros Hb. cbn zeta. destruct (bi2uni_inv d2 xs Hb) as (_ & H1 & H2 & _).
  split; [exact H1|]. split; [exact H2|]. split; [apply bi2uni_ge_max, Hb|].
  intros Hd. apply bi2uni_exact; assumption.
Qed.

Lemma sat_zeros_count d2 xs : 
  sat_zeros d2 bi2uni_init xs =
  countb (fun k => (final (bi2uni_step d2) bi2uni_init (firstn k xs) =? - p2 d2) && (nth k xs 0 =? 0))
                     (seq 0 (length xs)).
Proof.
  induction xs as [|x xs IH] using rev_ind; [reflexivity|].
  rewrite sat_zeros_snoc, IH, app_length. cbn [length]. rewrite seq_app, countb_app. f_equal.
  - apply countb_ext. intros k Hk. apply in_seq in Hk.
    rewrite firstn_app. replace (k - length xs)%nat with 0%nat by lia. cbn [firstn]. rewrite app_nil_r.
    rewrite app_nth1 by lia. reflexivity.
  - cbn [seq countb Nat.add]. rewrite firstn_app, firstn_all, Nat.sub_diag. cbn [firstn]. rewrite app_nil_r.
    rewrite app_nth2, Nat.sub_diag by lia. cbn [nth]. lia.
Qed.

Lemma bi2uni_lost d2 xs : bits xs ->
  let acc := final (bi2uni_step d2) bi2uni_init xs in
  let o := outs (bi2uni_step d2) bi2uni_init xs in
  let lost := countb (fun k => (final (bi2uni_step d2) bi2uni_init (firstn k xs) =? - p2 d2) && (nth k xs 0 =? 0))
                     (seq 0 (length xs)) in
  - p2 d2 <= acc <= 0 /\ ones o + acc = walk xs + lost.
Proof.
  intros Hb. cbn zeta. rewrite <- sat_zeros_count. split; [apply (bi2uni_inv d2 xs Hb)|].
  apply bi2uni_balance, Hb.
Qed.
