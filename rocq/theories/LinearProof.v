(** Proofs about FSULinearPC and FSULinear. *)
From Coq Require Import String.
Require Import Verif.BaseLemmas Verif.GenModel Verif.AddModel Verif.KernelModel Verif.LinearModel.
Require Import Verif.GenProof Verif.AddProof Verif.KernelProof.
Open Scope Z_scope.

(** ** Tabulated tensors *)
Definition tab {A} (n : nat) (f : nat -> A) : list A := map f (seq 0 n).

Lemma tab_length {A} n (f : nat -> A) : length (tab n f) = n.
Proof. unfold tab. rewrite map_length, seq_length. reflexivity. Qed.

Lemma tab_nth {A} n (f : nat -> A) i d : (i < n)%nat -> nth i (tab n f) d = f i.
Proof.
  intros H. unfold tab. rewrite (nth_indep _ d (f 0%nat)) by (rewrite map_length, seq_length; exact H).
  rewrite map_nth, seq_nth by exact H. reflexivity.
Qed.

Lemma tab_ext {A} n (f g : nat -> A) : (forall i, (i < n)%nat -> f i = g i) -> tab n f = tab n g.
Proof. intros H. unfold tab. apply map_ext_in. intros i Hi. apply in_seq in Hi. apply H. lia. Qed.

Lemma tab_of {A} (l : list A) d : l = tab (length l) (fun i => nth i l d).
Proof.
  apply (list_eq_nth _ _ d); [rewrite tab_length; reflexivity|].
  intros k Hk. rewrite tab_nth by exact Hk. reflexivity.
Qed.

Lemma map_tab {A B} (g : A -> B) n (f : nat -> A) : map g (tab n f) = tab n (fun i => g (f i)).
Proof. unfold tab. rewrite map_map. reflexivity. Qed.

Lemma map2_tab {A B C} (g : A -> B -> C) n (f1 : nat -> A) (f2 : nat -> B) :
  map2 g (tab n f1) (tab n f2) = tab n (fun i => g (f1 i) (f2 i)).
Proof.
  unfold tab. generalize 0%nat. induction n as [|n IH]; intros a; [reflexivity|].
  cbn [seq map map2]. rewrite IH. reflexivity.
Qed.

Lemma tab_S {A} n (f : nat -> A) : tab (S n) f = tab n f ++ [f n].
Proof. unfold tab. rewrite seq_S, map_app. reflexivity. Qed.

Lemma repeat_tab {A} (a : A) n : repeat a n = tab n (fun _ => a).
Proof.
  unfold tab. generalize 0%nat. induction n as [|n IH]; intros k; [reflexivity|].
  cbn [seq map repeat]. rewrite (IH (S k)). reflexivity.
Qed.

Lemma concat_singletons {A} (a : A) n : concat (repeat [a] n) = repeat a n.
Proof. induction n as [|n IH]; [reflexivity|]. cbn. rewrite IH. reflexivity. Qed.

Definition tab2 {A} (r c : nat) (f : nat -> nat -> A) := tab r (fun i => tab c (f i)).
Definition tab3 {A} (n r c : nat) (f : nat -> nat -> nat -> A) := tab n (fun b => tab2 r c (f b)).

Lemma tab2_ext {A} r c (f g : nat -> nat -> A) :
  (forall i j, (i < r)%nat -> (j < c)%nat -> f i j = g i j) -> tab2 r c f = tab2 r c g.
Proof. intros H. apply tab_ext. intros i Hi. apply tab_ext. intros j Hj. apply H; assumption. Qed.

Lemma tab3_ext {A} n r c (f g : nat -> nat -> nat -> A) :
  (forall b i j, (b < n)%nat -> (i < r)%nat -> (j < c)%nat -> f b i j = g b i j) -> tab3 n r c f = tab3 n r c g.
Proof. intros H. apply tab_ext. intros b Hb. apply tab2_ext. intros. apply H; assumption. Qed.

Lemma matrix_tab {A} (d : A) r c (m : list (list A)) : length m = r -> Forall (fun row => length row = c) m ->
  m = tab2 r c (fun i j => nth j (nth i m []) d).
Proof.
  intros Hr Hc. rewrite (tab_of m []) at 1. rewrite Hr. apply tab_ext. intros i Hi.
  rewrite (tab_of (nth i m []) d) at 1. f_equal.
  apply (Forall_nth_lt _ m i [] Hc). lia.
Qed.

Lemma expand_tab {A} B R (f : nat -> A) : (R = B \/ R = 1%nat /\ forall b, f b = f 0%nat) ->
  expand B (tab R f) = tab B f.
Proof.
  intros [->|[-> H]]; unfold expand; rewrite tab_length.
  - rewrite Nat.eqb_refl. reflexivity.
  - destruct (Nat.eqb_spec 1 B) as [E|E]; [subst; reflexivity|].
    change (tab 1 f) with [f 0%nat]. rewrite concat_singletons, repeat_tab. apply tab_ext. intros b _. symmetry. apply H.
Qed.

Lemma bcast_same {A} n (l : list A) : length l = n -> bcast n l = Ok l.
Proof. intros <-. unfold bcast. rewrite Nat.eqb_refl. reflexivity. Qed.

Lemma zsum_tab_add n f g : zsum (tab n (fun i => f i + g i)) = zsum (tab n f) + zsum (tab n g).
Proof. induction n as [|n IH]; [reflexivity|]. rewrite !tab_S, !zsum_app, IH. cbn [zsum]. lia. Qed.

Lemma zsum_tab_bounds n f : (forall i, (i < n)%nat -> bit (f i)) -> 0 <= zsum (tab n f) <= Z.of_nat n.
Proof.
  induction n as [|n IH]; intros H; [cbn; lia|]. rewrite tab_S, zsum_app. cbn [zsum].
  assert (0 <= zsum (tab n f) <= Z.of_nat n) by (apply IH; intros; apply H; lia).
  destruct (H n ltac:(lia)); lia.
Qed.

(** ** One call of the parallel counter on tabulated data *)
Definition pc_shape (c : pc_cfg) : Prop :=
  length (pc_weight c) = pc_out c /\ Forall (fun r => length r = pc_in c) (pc_weight c) /\
  match pc_bias c with None => True | Some b => length b = pc_out c end.

(** The product bit at index state (i1, i0). *)
Definition pc_prod (c : pc_cfg) (o i : nat) (i1 i0 x : Z) : Z :=
  let w := entry2 (pc_weight c) o i in
  x * bsgen_bit w (pc_rng c) i1 +
  match pc_mode c with
  | Unipolar => 0
  | Bipolar => (1 - x) * (1 - bsgen_bit w (pc_rng c) (if pc_wtc c then i1 else i0))
  end.

Definition pc_bbit (c : pc_cfg) (o : nat) (t : Z) : Z :=
  match pc_bias c with None => 0 | Some b => bsgen_bit (nth o b 0) (pc_rng c) t end.

Definition i0_used (c : pc_cfg) : bool := match pc_mode c with Unipolar => false | Bipolar => negb (pc_wtc c) end.

Definition pc_tab (c : pc_cfg) (R R0 : nat) (f1 f0 : nat -> nat -> nat -> Z) (t : Z) : pc_st :=
  {| pc_i1 := tab3 R (pc_out c) (pc_in c) f1; pc_i0 := tab3 R0 (pc_out c) (pc_in c) f0;
     pc_brdx := match pc_bias c with None => [] | Some _ => repeat t (pc_out c) end |}.

Lemma weights_tab c : pc_shape c -> pc_weight c = tab2 (pc_out c) (pc_in c) (entry2 (pc_weight c)).
Proof. intros (H1 & H2 & _). apply (matrix_tab 0); assumption. Qed.

Lemma wbits_tab c R f : pc_shape c ->
  wbits (pc_weight c) (pc_rng c) (tab3 R (pc_out c) (pc_in c) f) =
  tab3 R (pc_out c) (pc_in c) (fun b o i => bsgen_bit (entry2 (pc_weight c) o i) (pc_rng c) (f b o i)).
Proof.
  intros Hs. unfold wbits, tab3. rewrite map_tab. apply tab_ext. intros b _.
  rewrite (weights_tab c Hs) at 1. unfold tab2. rewrite map2_tab. apply tab_ext. intros o _.
  rewrite map2_tab. reflexivity.
Qed.

Lemma neg3_tab n r k f : neg3 (tab3 n r k f) = tab3 n r k (fun b o i => 1 - f b o i).
Proof.
  unfold neg3, tab3, tab2. rewrite map_tab. apply tab_ext. intros b _. rewrite map_tab. apply tab_ext. intros o _.
  rewrite map_tab. reflexivity.
Qed.

Lemma add_rows_tab n r k f g :
  add_rows (tab3 n r k f) (tab2 n k g) = tab3 n r k (fun b o i => f b o i + g b i).
Proof.
  unfold add_rows, tab3, tab2. rewrite map2_tab. apply tab_ext. intros b _. rewrite map_tab. apply tab_ext. intros o _.
  rewrite map2_tab. reflexivity.
Qed.

Lemma matmul_tab n r k x w :
  matmul (tab2 n k x) (tab3 n r k w) = tab2 n r (fun b o => zsum (tab k (fun i => x b i * w b o i))).
Proof.
  unfold matmul, tab3, tab2. rewrite map2_tab. apply tab_ext. intros b _. rewrite map_tab. apply tab_ext. intros o _.
  unfold dot. rewrite map2_tab. reflexivity.
Qed.

Lemma add2_tab n r f g : add2 (tab2 n r f) (tab2 n r g) = tab2 n r (fun b o => f b o + g b o).
Proof.
  unfold add2, tab2. rewrite map2_tab. apply tab_ext. intros b _. rewrite map2_tab. reflexivity.
Qed.

Lemma map_map_tab2 {A B} (g : A -> B) n r f : map (map g) (tab2 n r f) = tab2 n r (fun b o => g (f b o)).
Proof. unfold tab2. rewrite map_tab. apply tab_ext. intros b _. rewrite map_tab. reflexivity. Qed.

Lemma forallb_len (n : nat) (l : list (list Z)) : Forall (fun r => length r = n) l ->
  forallb (fun r => (length r =? n)%nat) l = true.
Proof. intros H. apply forallb_forall. intros r Hr. rewrite Forall_forall in H. apply Nat.eqb_eq, H, Hr. Qed.

Lemma bias_tab c t B r : pc_shape c ->
  match pc_bias c with
  | None => tab2 B (pc_out c) r
  | Some b => map (fun row => map2 Z.add row
                (map2 (fun v i => bsgen_bit v (pc_rng c) i) b (repeat t (pc_out c)))) (tab2 B (pc_out c) r)
  end = tab2 B (pc_out c) (fun b o => r b o + pc_bbit c o t).
Proof.
  intros (_ & _ & Hb). unfold pc_bbit. destruct (pc_bias c) as [bs|].
  - unfold tab2. rewrite map_tab. apply tab_ext. intros b _. rewrite (tab_of bs 0) at 1.
    rewrite Hb, repeat_tab, !map2_tab. reflexivity.
  - apply tab2_ext. intros. lia.
Qed.

Lemma pc_step_tab c R R0 f1 f0 t B x : pc_shape c -> (1 <= B)%nat ->
  (R = B \/ R = 1%nat /\ forall b, f1 b = f1 0%nat) ->
  (i0_used c = true -> R0 = B \/ R0 = 1%nat /\ forall b, f0 b = f0 0%nat) ->
  pc_step c (pc_tab c R R0 f1 f0 t) (tab2 B (pc_in c) x) =
  Ok (pc_tab c B (if i0_used c then B else R0)
        (fun b o i => f1 b o i + (if pc_wtc c then 1 else x b i))
        (if i0_used c then fun b o i => f0 b o i + (1 - x b i) else f0) (t + 1),
      tab2 B (pc_out c) (fun b o => zsum (tab (pc_in c) (fun i => pc_prod c o i (f1 b o i) (f0 b o i) (x b i))) + pc_bbit c o t)).
Proof.
  intros Hs HB HR HR0. unfold pc_step.
  assert (Hlen : length (tab2 B (pc_in c) x) = B) by apply tab_length. rewrite Hlen.
  destruct (Nat.eqb_spec B 0) as [E|_]; [lia|].
  rewrite forallb_len; [cbn [negb]|].
  2:{ apply Forall_forall. intros r Hr. unfold tab2, tab in Hr. apply in_map_iff in Hr. destruct Hr as (b & <- & _). apply tab_length. }
  unfold pc_tab. cbn [pc_i1 pc_i0 pc_brdx].
  rewrite wbits_tab by exact Hs.
  assert (E1 : expand B (tab3 R (pc_out c) (pc_in c) f1) = tab3 B (pc_out c) (pc_in c) f1).
  { unfold tab3. apply expand_tab. destruct HR as [HR|[HR HR']]; [left; exact HR|right; split; [exact HR|]].
    intros b. rewrite HR'. reflexivity. }
  assert (E2 : expand B (tab3 R (pc_out c) (pc_in c) (fun b o i => bsgen_bit (entry2 (pc_weight c) o i) (pc_rng c) (f1 b o i))) =
               tab3 B (pc_out c) (pc_in c) (fun b o i => bsgen_bit (entry2 (pc_weight c) o i) (pc_rng c) (f1 b o i))).
  { unfold tab3. apply expand_tab. destruct HR as [HR|[HR HR']]; [left; exact HR|right; split; [exact HR|]].
    intros b. rewrite HR'. reflexivity. }
  rewrite E1, E2. clear E1 E2.
  rewrite bcast_same by (rewrite Hlen; symmetry; apply tab_length). cbn [bind].
  rewrite matmul_tab, !map_map_tab2.
  match goal with |- context [match pc_bias c with None => tab2 B ?n ?r | Some b => map _ _ end] => 
    pose proof (bias_tab c t B r Hs) as Eb end.
  assert (Ebr : match pc_bias c with None => match pc_bias c with None => [] | Some _ => repeat t (pc_out c) end
     | Some _ => map (fun i => i + 1) match pc_bias c with None => [] | Some _ => repeat t (pc_out c) end end =
     match pc_bias c with None => [] | Some _ => repeat (t + 1) (pc_out c) end).
  { destruct (pc_bias c); [|reflexivity]. rewrite !repeat_tab, map_tab. reflexivity. }
  rewrite Ebr.
  match goal with |- context [add_rows ?p ?q] => 
    assert (Ea : add_rows p q = tab3 B (pc_out c) (pc_in c) (fun b o i => f1 b o i + (if pc_wtc c then 1 else x b i))) end.
  { destruct (pc_wtc c); apply add_rows_tab. }
  rewrite Ea.
  assert (Eb2 : match pc_bias c with
     | None => tab2 B (pc_out c) (fun b o => zsum (tab (pc_in c) (fun i => x b i * bsgen_bit (entry2 (pc_weight c) o i) (pc_rng c) (f1 b o i))))
     | Some b => map (fun r => map2 Z.add r (map2 (fun v i => bsgen_bit v (pc_rng c) i) b match pc_bias c with None => [] | Some _ => repeat t (pc_out c) end))
          (tab2 B (pc_out c) (fun b o => zsum (tab (pc_in c) (fun i => x b i * bsgen_bit (entry2 (pc_weight c) o i) (pc_rng c) (f1 b o i)))))
     end = tab2 B (pc_out c) (fun b o => zsum (tab (pc_in c) (fun i => x b i * bsgen_bit (entry2 (pc_weight c) o i) (pc_rng c) (f1 b o i))) + pc_bbit c o t)).
  { rewrite <- Eb. destruct (pc_bias c); reflexivity. }
  rewrite Eb2. clear Eb Eb2 Ebr Ea.
  unfold i0_used in *. unfold pc_prod. destruct (pc_mode c).
  - apply (f_equal Ok). apply (f_equal2 pair); [reflexivity|]. apply tab2_ext. intros b o _ _.
    f_equal. f_equal. apply tab_ext. intros. lia.
  - destruct (pc_wtc c) eqn:Ew; cbn [negb] in *.
    + apply (f_equal Ok). apply (f_equal2 pair); [reflexivity|].
      rewrite neg3_tab, matmul_tab, add2_tab. apply tab2_ext. intros b o _ _.
      rewrite zsum_tab_add. lia.
    + specialize (HR0 eq_refl). rewrite wbits_tab, neg3_tab by exact Hs.
      assert (E1 : expand B (tab3 R0 (pc_out c) (pc_in c) f0) = tab3 B (pc_out c) (pc_in c) f0).
      { unfold tab3. apply expand_tab. destruct HR0 as [HR'|[HR' HR'']]; [left; exact HR'|right; split; [exact HR'|]].
        intros b. rewrite HR''. reflexivity. }
      assert (E2 : expand B (tab3 R0 (pc_out c) (pc_in c) (fun b o i => 1 - bsgen_bit (entry2 (pc_weight c) o i) (pc_rng c) (f0 b o i))) =
                   tab3 B (pc_out c) (pc_in c) (fun b o i => 1 - bsgen_bit (entry2 (pc_weight c) o i) (pc_rng c) (f0 b o i))).
      { unfold tab3. apply expand_tab. destruct HR0 as [HR'|[HR' HR'']]; [left; exact HR'|right; split; [exact HR'|]].
        intros b. rewrite HR''. reflexivity. }
      rewrite E1, E2. apply (f_equal Ok). apply (f_equal2 pair).
      * rewrite add_rows_tab. reflexivity.
      * rewrite matmul_tab, add2_tab. apply tab2_ext. intros b o _ _. rewrite zsum_tab_add. lia.
Qed.

(** ** Histories *)
Definition pc_idx1 (c : pc_cfg) (h : list (list (list Z))) (b i : nat) : Z :=
  if pc_wtc c then zlen h else ones (lane h b i).
Definition pc_idx0 (c : pc_cfg) (h : list (list (list Z))) (b i : nat) : Z :=
  if i0_used c then zeros (lane h b i) else 0.

Definition pc_out_at (c : pc_cfg) (h : list (list (list Z))) (t b o : nat) : Z :=
  zsum (tab (pc_in c) (fun i =>
    pc_prod c o i (pc_idx1 c (firstn t h) b i) (pc_idx0 c (firstn t h) b i) (entry2 (nth t h []) b i)))
  + pc_bbit c o (Z.of_nat t).

Definition rows_after (c : pc_cfg) (B : nat) (h : list (list (list Z))) : nat := match h with [] => 1%nat | _ => B end.

Lemma pc_init_tab c : pc_shape c -> pc_init c = pc_tab c 1 1 (fun _ _ _ => 0) (fun _ _ _ => 0) 0.
Proof.
  intros Hs. unfold pc_init, pc_tab.
  assert (E : map (map (fun _ => 0)) (pc_weight c) = tab2 (pc_out c) (pc_in c) (fun _ _ => 0)).
  { rewrite (weights_tab c Hs) at 1. apply map_map_tab2. }
  rewrite E. f_equal. destruct Hs as (_ & _ & Hb). destruct (pc_bias c) as [bs|]; [|reflexivity].
  rewrite repeat_tab, <- Hb. rewrite (tab_of bs 0) at 1. apply map_tab.
Qed.

Lemma batch_tab B n x : batch_ok B n x -> x = tab2 B n (entry2 x).
Proof.
  intros [H1 H2]. apply (matrix_tab 0 B n x H1). eapply Forall_impl; [|exact H2]. intros r [Hr _]. exact Hr.
Qed.

Lemma batch_bit B n x b i : batch_ok B n x -> (b < B)%nat -> (i < n)%nat -> bit (entry2 x b i).
Proof.
  intros [H1 H2] Hb Hi. unfold entry2.
  destruct (Forall_nth_lt _ x b [] H2 ltac:(lia)) as [Hl Hbits].
  apply (Forall_nth_lt bit _ i 0 Hbits). lia.
Qed.

Lemma lane_snoc h x b i : lane (h ++ [x]) b i = lane h b i ++ [entry2 x b i].
Proof. unfold lane. rewrite map_app. reflexivity. Qed.

Lemma lane_bits B n h b i : Forall (batch_ok B n) h -> (b < B)%nat -> (i < n)%nat -> bits (lane h b i).
Proof.
  intros H Hb Hi. unfold lane, bits. rewrite Forall_map. eapply Forall_impl; [|exact H].
  intros x Hx. apply (batch_bit B n); assumption.
Qed.

Lemma pc_run c B h : pc_shape c -> (1 <= B)%nat -> Forall (batch_ok B (pc_in c)) h ->
  run_r (pc_step c) (pc_init c) h =
  Ok (pc_tab c (rows_after c B h) (if i0_used c then rows_after c B h else 1)
        (fun b _ i => pc_idx1 c h b i) (fun b _ i => pc_idx0 c h b i) (zlen h),
      tab (length h) (fun t => tab2 B (pc_out c) (pc_out_at c h t))).
Proof.
  intros Hs HB. induction h as [|x h IH] using rev_ind; intros Hh.
  - cbn [run_r length tab seq map rows_after]. rewrite (pc_init_tab c Hs). f_equal. f_equal.
    unfold pc_tab, pc_idx1, pc_idx0. cbn [lane map]. change (ones []) with 0. change (zeros []) with 0. change (zlen (@nil (list (list Z)))) with 0.
    destruct (pc_wtc c), (i0_used c); reflexivity.
  - apply Forall_app in Hh. destruct Hh as [Hh Hx]. inversion Hx as [|? ? Hx1 _]; subst. clear Hx.
    rewrite run_r_snoc, (IH Hh). clear IH.
    rewrite (batch_tab B (pc_in c) x Hx1) at 1.
    rewrite pc_step_tab; [|exact Hs|exact HB| |].
    2:{ destruct h; [right|left; reflexivity]. split; [reflexivity|]. intros b. unfold pc_idx1. cbn. destruct (pc_wtc c); reflexivity. }
    2:{ intros E. rewrite E. destruct h; [right|left; reflexivity]. split; [reflexivity|]. intros b. unfold pc_idx0. cbn. destruct (i0_used c); reflexivity. }
    apply (f_equal Ok). apply (f_equal2 pair).
    + unfold pc_tab. rewrite zlen_snoc. f_equal.
      * replace (rows_after c B (h ++ [x])) with B by (destruct h; reflexivity).
        apply tab3_ext. intros b o i Hb Ho Hi. unfold pc_idx1. rewrite zlen_snoc. destruct (pc_wtc c); [reflexivity|].
        rewrite lane_snoc, ones_snoc; [reflexivity|]. apply (batch_bit B (pc_in c)); assumption.
      * destruct (i0_used c) eqn:E0; [|unfold pc_idx0; rewrite E0; reflexivity].
        replace (rows_after c B (h ++ [x])) with B by (destruct h; reflexivity).
        apply tab3_ext. intros b o i Hb Ho Hi. unfold pc_idx0. rewrite E0.
        rewrite lane_snoc, zeros_snoc; [reflexivity|]. apply (batch_bit B (pc_in c)); assumption.
    + rewrite app_length. cbn [length]. rewrite Nat.add_1_r, tab_S. f_equal.
      * apply tab_ext. intros t Ht. apply tab2_ext. intros b o _ _. unfold pc_out_at.
        rewrite firstn_app, (app_nth1 h [x] []) by exact Ht.
        replace (t - length h)%nat with 0%nat by lia. cbn [firstn]. rewrite app_nil_r. reflexivity.
      * f_equal. apply tab2_ext. intros b o _ _. unfold pc_out_at.
        rewrite firstn_app, firstn_all, Nat.sub_diag. cbn [firstn]. rewrite app_nil_r.
        rewrite app_nth2, Nat.sub_diag by lia. cbn [nth]. reflexivity.
Qed.

(** ** The product bits are those of the multipliers *)
Lemma mul_static_nth m B rng xs t : (0 < length rng)%nat -> bits xs -> (t < length xs)%nat ->
  nth t (outs (fsumul_static_step m B rng) fsumul_static_init xs) 0 =
  nth t xs 0 * bsgen_bit B rng (ones (firstn t xs)) +
  match m with Unipolar => 0 | Bipolar => (1 - nth t xs 0) * (1 - bsgen_bit B rng (zeros (firstn t xs))) end.
Proof.
  intros Hl Hb Ht. rewrite (outs_nth _ _ xs t 0 0 Ht).
  assert (Hx : bit (nth t xs 0)) by (apply (Forall_nth_lt bit xs t 0 Hb Ht)).
  pose proof (bits_firstn xs t Hb) as Hf.
  pose proof (bsgen_bit_bit B rng (ones (firstn t xs))) as Hbb. pose proof (bsgen_bit_bit B rng (zeros (firstn t xs))) as Hbz.
  destruct m.
  - destruct (mul_static_uni B rng (firstn t xs) Hl Hf) as (H1 & _).
    destruct (final (fsumul_static_step Unipolar B rng) fsumul_static_init (firstn t xs)) as [i j]. cbn [fst] in H1. subst i.
    unfold fsumul_static_step. cbn [fst snd]. rewrite land_bit_l by assumption. lia.
  - destruct (mul_static_bi B rng (firstn t xs) Hl Hf) as (H1 & _). rewrite H1.
    unfold fsumul_static_step. cbn [fst snd].
    destruct Hx as [->| ->], Hbb as [->| ->], Hbz as [->| ->]; reflexivity.
Qed.

Lemma lane_firstn t h b i : lane (firstn t h) b i = firstn t (lane h b i).
Proof. unfold lane. symmetry. apply firstn_map. Qed.

Lemma lane_length h b i : length (lane h b i) = length h.
Proof. unfold lane. apply map_length. Qed.

Lemma lane_nth h t b i : nth t (lane h b i) 0 = entry2 (nth t h []) b i.
Proof.
  assert (E : entry2 [] b i = 0) by (unfold entry2; destruct b, i; reflexivity).
  transitivity (nth t (lane h b i) (entry2 [] b i)); [rewrite E; reflexivity|].
  unfold lane. apply (map_nth (fun x => entry2 x b i)).
Qed.

Definition rng_ok (c : pc_cfg) : Prop := (0 < length (pc_rng c))%nat.

Lemma pc_prod_rate c B h t b o i : pc_wtc c = false -> rng_ok c -> Forall (batch_ok B (pc_in c)) h ->
  (t < length h)%nat -> (b < B)%nat -> (i < pc_in c)%nat ->
  pc_prod c o i (pc_idx1 c (firstn t h) b i) (pc_idx0 c (firstn t h) b i) (entry2 (nth t h []) b i) =
  nth t (outs (fsumul_static_step (pc_mode c) (entry2 (pc_weight c) o i) (pc_rng c)) fsumul_static_init (lane h b i)) 0.
Proof.
  intros Hw Hr Hh Ht Hb Hi.
  rewrite mul_static_nth; [|exact Hr|apply (lane_bits B (pc_in c)); assumption|rewrite lane_length; exact Ht].
  unfold pc_prod, pc_idx1, pc_idx0, i0_used. rewrite Hw, lane_firstn, lane_nth. destruct (pc_mode c); reflexivity.
Qed.

Lemma pc_prod_temporal c B h t b o i : pc_wtc c = true -> Forall (batch_ok B (pc_in c)) h ->
  (t < length h)%nat -> (b < B)%nat -> (i < pc_in c)%nat ->
  pc_prod c o i (pc_idx1 c (firstn t h) b i) (pc_idx0 c (firstn t h) b i) (entry2 (nth t h []) b i) =
  product_bit (pc_mode c) (entry2 (nth t h []) b i) (bsgen_bit (entry2 (pc_weight c) o i) (pc_rng c) (Z.of_nat t)).
Proof.
  intros Hw Hh Ht Hb Hi.
  unfold pc_prod, pc_idx1. rewrite Hw. unfold zlen. rewrite firstn_length, Nat.min_l by lia.
  pose proof (bsgen_bit_bit (entry2 (pc_weight c) o i) (pc_rng c) (Z.of_nat t)) as Hbb.
  pose proof (batch_bit B (pc_in c) (nth t h []) b i (Forall_nth_lt _ h t [] Hh Ht) Hb Hi) as Hx.
  unfold product_bit. destruct (pc_mode c); [lia|].
  destruct Hx as [->| ->], Hbb as [->| ->]; reflexivity.
Qed.

Lemma pc_prod_bit c o i i1 i0 x : bit x -> bit (pc_prod c o i i1 i0 x).
Proof.
  intros Hx. unfold pc_prod.
  pose proof (bsgen_bit_bit (entry2 (pc_weight c) o i) (pc_rng c) i1) as H1.
  pose proof (bsgen_bit_bit (entry2 (pc_weight c) o i) (pc_rng c) (if pc_wtc c then i1 else i0)) as H0.
  destruct (pc_mode c); destruct Hx as [->| ->], H1 as [E1|E1], H0 as [E0|E0]; rewrite ?E1, ?E0; unfold bit; lia.
Qed.

Lemma pc_bbit_bit c o t : bit (pc_bbit c o t).
Proof. unfold pc_bbit. destruct (pc_bias c); [apply bsgen_bit_bit|left; reflexivity]. Qed.

Lemma pc_out_range c B h t b o : Forall (batch_ok B (pc_in c)) h -> (t < length h)%nat -> (b < B)%nat ->
  0 <= pc_out_at c h t b o <= flin_entry c.
Proof.
  intros Hh Ht Hb. unfold pc_out_at, flin_entry.
  assert (0 <= zsum (tab (pc_in c) (fun i => pc_prod c o i (pc_idx1 c (firstn t h) b i) (pc_idx0 c (firstn t h) b i) (entry2 (nth t h []) b i)))
          <= Z.of_nat (pc_in c)).
  { apply zsum_tab_bounds. intros i Hi. apply pc_prod_bit. apply (batch_bit B (pc_in c)); try assumption.
    apply (Forall_nth_lt _ h t [] Hh Ht). }
  pose proof (pc_bbit_bit c o (Z.of_nat t)) as Hbb. unfold pc_bbit in *.
  destruct (pc_bias c); destruct Hbb as [E|E]; rewrite ?E; lia.
Qed.

Lemma tab2_entry n r f b o : (b < n)%nat -> (o < r)%nat -> entry2 (tab2 n r f) b o = f b o.
Proof. intros Hb Ho. unfold entry2, tab2. rewrite tab_nth by exact Hb. apply tab_nth, Ho. Qed.

Lemma tab2_shape n r f : batch_shape n r (tab2 n r f).
Proof.
  split; [apply tab_length|]. apply Forall_forall. intros x Hx. unfold tab2, tab in Hx. apply in_map_iff in Hx.
  destruct Hx as (b & <- & _). apply tab_length.
Qed.

Theorem pc_rate : forall c B h, pc_shape c -> rng_ok c -> pc_wtc c = false -> (1 <= B)%nat ->
  Forall (batch_ok B (pc_in c)) h ->
  exists os, outputs (run_r (pc_step c) (pc_init c) h) = Some os /\ length os = length h /\
    forall t, (t < length h)%nat -> batch_shape B (pc_out c) (nth t os []) /\
    forall b o, (b < B)%nat -> (o < pc_out c)%nat ->
      entry2 (nth t os []) b o =
      zsum (map (fun i => nth t (outs (fsumul_static_step (pc_mode c) (entry2 (pc_weight c) o i) (pc_rng c))
                                      fsumul_static_init (lane h b i)) 0) (seq 0 (pc_in c)))
      + match pc_bias c with None => 0 | Some bs => bsgen_bit (nth o bs 0) (pc_rng c) (Z.of_nat t) end
      /\ 0 <= entry2 (nth t os []) b o <= Z.of_nat (pc_in c) + match pc_bias c with None => 0 | Some _ => 1 end.
Proof.
  intros c B h Hs Hr Hw HB Hh. rewrite (pc_run c B h Hs HB Hh). eexists. split; [reflexivity|].
  split; [apply tab_length|]. intros t Ht. rewrite tab_nth by exact Ht.
  split; [apply tab2_shape|]. intros b o Hb Ho.
  rewrite tab2_entry by assumption. split; [|apply (pc_out_range c B h t b o Hh Ht Hb)].
  unfold pc_out_at. f_equal. f_equal. apply tab_ext. intros i Hi. apply (pc_prod_rate c B); assumption.
Qed.

Theorem pc_temporal : forall c B h, pc_shape c -> rng_ok c -> pc_wtc c = true -> (1 <= B)%nat ->
  Forall (batch_ok B (pc_in c)) h ->
  exists os, outputs (run_r (pc_step c) (pc_init c) h) = Some os /\ length os = length h /\
    forall t, (t < length h)%nat -> batch_shape B (pc_out c) (nth t os []) /\
    forall b o, (b < B)%nat -> (o < pc_out c)%nat ->
      entry2 (nth t os []) b o =
      zsum (map (fun i => product_bit (pc_mode c) (nth t (lane h b i) 0)
                            (bsgen_bit (entry2 (pc_weight c) o i) (pc_rng c) (Z.of_nat t))) (seq 0 (pc_in c)))
      + match pc_bias c with None => 0 | Some bs => bsgen_bit (nth o bs 0) (pc_rng c) (Z.of_nat t) end
      /\ 0 <= entry2 (nth t os []) b o <= Z.of_nat (pc_in c) + match pc_bias c with None => 0 | Some _ => 1 end.
Proof.
  intros c B h Hs Hr Hw HB Hh. rewrite (pc_run c B h Hs HB Hh). eexists. split; [reflexivity|].
  split; [apply tab_length|]. intros t Ht. rewrite tab_nth by exact Ht.
  split; [apply tab2_shape|]. intros b o Hb Ho.
  rewrite tab2_entry by assumption. split; [|apply (pc_out_range c B h t b o Hh Ht Hb)].
  unfold pc_out_at. f_equal. f_equal. apply tab_ext. intros i Hi. rewrite lane_nth. apply (pc_prod_temporal c B); assumption.
Qed.

(** ** FSULinear *)
Definition fl_inputs (h : list (list (list Z) * option Q * option Z)) : list (list (list Z)) := map (fun x => fst (fst x)) h.
Definition fl_calls (c : pc_cfg) (h : list (list (list Z) * option Q * option Z)) (b o : nat)
  : list (list Z * option Q * option Z) :=
  tab (length h) (fun t => ([pc_out_at c (fl_inputs h) t b o], snd (fst (nth t h ([], None, None))), snd (nth t h ([], None, None)))).

Lemma pc_out_at_app c h x t b o : (t < length h)%nat -> pc_out_at c (h ++ [x]) t b o = pc_out_at c h t b o.
Proof.
  intros Ht. unfold pc_out_at. rewrite firstn_app, (app_nth1 h [x] []) by exact Ht.
  replace (t - length h)%nat with 0%nat by lia. cbn [firstn]. rewrite app_nil_r. reflexivity.
Qed.

Lemma fl_calls_snoc c h x sc en b o : fl_calls c (h ++ [(x, sc, en)]) b o =
  fl_calls c h b o ++ [([pc_out_at c (fl_inputs h ++ [x]) (length h) b o], sc, en)].
Proof.
  unfold fl_calls, fl_inputs. rewrite map_app, app_length. cbn [length map fst]. rewrite Nat.add_1_r, tab_S.
  f_equal.
  - apply tab_ext. intros t Ht. rewrite pc_out_at_app by (rewrite map_length; exact Ht).
    rewrite app_nth1 by exact Ht. reflexivity.
  - rewrite app_nth2, Nat.sub_diag by lia. reflexivity.
Qed.

Lemma run_r_out {S I O} (step : S -> I -> result (S * O)) s h x s' os s1 o1 :
  run_r step s (h ++ [x]) = Ok (s', os ++ [o1]) -> run_r step s h = Ok (s1, os) ->
  step s1 x = Ok (s', o1).
Proof.
  rewrite run_r_snoc. intros H E. rewrite E in H. destruct (step s1 x) as [[s2 o2]|e]; [|discriminate].
  apply (f_equal (fun r => match r with Ok p => p | Err _ => (s1, []) end)) in H.
  pose proof (f_equal fst H) as H1. pose proof (f_equal snd H) as H2. cbn [fst snd] in *.
  apply app_inv_head in H2. injection H2 as ->. subst. reflexivity.
Qed.

Lemma flin_run c a B h : pc_shape c -> (1 <= B)%nat -> Forall (batch_ok B (pc_in c)) (fl_inputs h) ->
  exists pc, run_r (pc_step c) (pc_init c) (fl_inputs h) = Ok pc /\
  run_r (flin_step c a) (flin_init c) h =
  Ok ({| fl_pc := fst pc;
         fl_acc := match h with
                   | [] => None
                   | _ => Some (tab2 B (pc_out c) (fun b o => final (fsuadd_call a) (fsuadd_init a) (fl_calls c h b o)))
                   end |},
      tab (length h) (fun t => tab2 B (pc_out c) (fun b o => nth t (outs (fsuadd_call a) (fsuadd_init a) (fl_calls c h b o)) 0))).
Proof.
  intros Hs HB. induction h as [|[[x sc] en] h IH] using rev_ind; intros Hh.
  - eexists. split; [reflexivity|]. reflexivity.
  - assert (Hh2 : Forall (batch_ok B (pc_in c)) (fl_inputs h ++ [x])).
    { unfold fl_inputs in *. rewrite map_app in Hh. exact Hh. }
    assert (Hh1 : Forall (batch_ok B (pc_in c)) (fl_inputs h)) by (apply Forall_app in Hh2; apply Hh2).
    destruct (IH Hh1) as (pc & E1 & E2). clear IH.
    pose proof (pc_run c B _ Hs HB Hh2) as R2. pose proof (pc_run c B _ Hs HB Hh1) as R1.
    replace (fl_inputs (h ++ [(x, sc, en)])) with (fl_inputs h ++ [x]) by (unfold fl_inputs; rewrite map_app; reflexivity).
    rewrite R2. eexists. split; [reflexivity|]. cbn [fst].
    rewrite run_r_snoc, E2. unfold flin_step at 1. cbn [fl_pc fl_acc].
    rewrite R1 in E1. apply (f_equal (fun r => match r with Ok p => p | Err _ => pc end)) in E1. rewrite <- E1. cbn [fst].
    rewrite app_length in R2. cbn [length] in R2. rewrite Nat.add_1_r, tab_S in R2.
    match type of R1 with _ = Ok (?s1, ?os) => match type of R2 with _ = Ok (?s', _ ++ [?o1]) =>
      assert (St : pc_step c s1 x = Ok (s', o1)) end end.
    { rewrite run_r_snoc, R1 in R2.
      match type of R2 with match ?st with Ok _ => _ | Err _ => _ end = _ => destruct st as [[s2 o2]|e]; [|discriminate] end.
      apply (f_equal (fun r => match r with Ok p => p | Err _ => (s2, []) end)) in R2.
      pose proof (f_equal fst R2) as H1. pose proof (f_equal snd R2) as H2. cbn [fst snd] in H1, H2.
      apply app_inj_tail in H2. destruct H2 as [_ ->]. rewrite H1. reflexivity. }
    rewrite St. cbn [bind].
    assert (Lt : length (fl_inputs h) = length h) by (unfold fl_inputs; apply map_length).
    assert (Ea : match match h with [] => None | _ :: _ => Some (tab2 B (pc_out c) (fun b o => final (fsuadd_call a) (fsuadd_init a) (fl_calls c h b o))) end with
       | None => Ok (map (map (fun _ : Z => fsuadd_init a)) (tab2 B (pc_out c) (pc_out_at c (fl_inputs h ++ [x]) (length (fl_inputs h)))))
       | Some acc => bcast (length (tab2 B (pc_out c) (pc_out_at c (fl_inputs h ++ [x]) (length (fl_inputs h))))) acc end =
       Ok (tab2 B (pc_out c) (fun b o => final (fsuadd_call a) (fsuadd_init a) (fl_calls c h b o)))).
    { destruct h.
      - rewrite map_map_tab2. reflexivity.
      - apply bcast_same. unfold tab2. rewrite !tab_length. reflexivity. }
    rewrite Ea. cbn [bind].
    assert (Em : map2 (map2 (fun st p => fsuadd_call a st ([p], sc, en)))
        (tab2 B (pc_out c) (fun b o => final (fsuadd_call a) (fsuadd_init a) (fl_calls c h b o)))
        (tab2 B (pc_out c) (pc_out_at c (fl_inputs h ++ [x]) (length (fl_inputs h)))) =
       tab2 B (pc_out c) (fun b o => fsuadd_call a (final (fsuadd_call a) (fsuadd_init a) (fl_calls c h b o))
          ([pc_out_at c (fl_inputs h ++ [x]) (length (fl_inputs h)) b o], sc, en))).
    { unfold tab2. rewrite map2_tab. apply tab_ext. intros b _. rewrite map2_tab. reflexivity. }
    rewrite Em, !map_map_tab2. clear Em Ea. rewrite Lt.
    apply (f_equal Ok). apply (f_equal2 pair).
    + f_equal. replace (match h ++ [(x, sc, en)] with [] => None | _ :: _ => Some (tab2 B (pc_out c) (fun b o => final (fsuadd_call a) (fsuadd_init a) (fl_calls c (h ++ [(x, sc, en)]) b o))) end)
        with (Some (tab2 B (pc_out c) (fun b o => final (fsuadd_call a) (fsuadd_init a) (fl_calls c (h ++ [(x, sc, en)]) b o)))) by (destruct h; reflexivity).
      f_equal. apply tab2_ext. intros b o _ _. rewrite fl_calls_snoc, final_snoc. reflexivity.
    + rewrite app_length. cbn [length]. rewrite Nat.add_1_r, tab_S. f_equal.
      * apply tab_ext. intros t Ht. apply tab2_ext. intros b o _ _. rewrite fl_calls_snoc, outs_snoc.
        rewrite app_nth1; [reflexivity|]. rewrite outs_length. unfold fl_calls. rewrite tab_length. exact Ht.
      * f_equal. apply tab2_ext. intros b o _ _. rewrite fl_calls_snoc, outs_snoc.
        assert (L : length (outs (fsuadd_call a) (fsuadd_init a) (fl_calls c h b o)) = length h).
        { rewrite outs_length. unfold fl_calls. apply tab_length. }
        rewrite app_nth2, L, Nat.sub_diag by lia. reflexivity.
Qed.

(** ** Exact accumulation of parallel-counter values *)
Lemma add_exact_sum lim e off cols : 0 < e -> (off == 0)%Q ->
  Forall (fun col => 0 <= zsum col <= e) cols ->
  (inject_Z (2 * e - 1) <= lim)%Q ->
  let s := inject_Z e in
  let O := ones (outs (add_lane lim s off) 0%Q cols) in
  let T := zsum (map zsum cols) in
  (final (add_lane lim s off) 0 cols == inject_Z (T - e * O))%Q /\ 0 <= T - e * O < e.
Proof.
  intros He Hoff Hb Hlim. cbn zeta.
  assert (HsQ : (0 < inject_Z e)%Q) by (apply inject_Z_pos, He).
  induction cols as [|col cols IH] using rev_ind.
  - cbn. split; [unfold Qeq; cbn; lia|lia].
  - apply Forall_app in Hb. destruct Hb as [Hb Hc]. inversion Hc as [|? ? Hc1 _]; subst.
    destruct (IH Hb) as [Ec Hr].
    rewrite final_snoc, outs_snoc, map_app, zsum_app. cbn [map zsum]. rewrite Z.add_0_r.
    set (acc := final (add_lane lim (inject_Z e) off) 0%Q cols) in *.
    set (O := ones (outs (add_lane lim (inject_Z e) off) 0%Q cols)) in *.
    rewrite (ones_app (outs (add_lane lim (inject_Z e) off) 0%Q cols)). fold O.
    rewrite (ones_bit _ (add_lane_out_bit lim (inject_Z e) off acc col)).
    set (T := zsum (map zsum cols)) in *.
    assert (Ep : (acc + (inject_Z (zsum col) - off) == inject_Z (T - e * O + zsum col))%Q).
    { rewrite Ec, Hoff, (inject_Z_plus _ (zsum col)). ring. }
    assert (B1 : (inject_Z (T - e * O + zsum col) <= inject_Z (2 * e - 1))%Q) by (apply inject_Z_le_iff; lia).
    assert (B0 : (inject_Z 0 <= inject_Z (T - e * O + zsum col))%Q) by (apply inject_Z_le_iff; lia).
    change (inject_Z 0) with 0%Q in B0.
    destruct (add_lane_free lim (inject_Z e) off acc col HsQ) as [F1 F2];
      [rewrite Ep; lra|rewrite Ep; lra|].
    set (o := snd (add_lane lim (inject_Z e) off acc col)) in *.
    rewrite F1, Ep. destruct F2 as [[Eo F2]|[Eo F2]]; rewrite Eo, Ep in *.
    + rewrite <- Zle_Qle in F2. split; [|lia].
      rewrite <- inject_Z_mult. unfold Qminus. rewrite <- inject_Z_opp, <- inject_Z_plus. apply inject_Z_eq. ring.
    + rewrite <- Zlt_Qlt in F2. split; [|lia].
      rewrite <- inject_Z_mult. unfold Qminus. rewrite <- inject_Z_opp, <- inject_Z_plus. apply inject_Z_eq. ring.
Qed.

Definition no_args (h : list (list (list Z))) : list (list (list Z) * option Q * option Z) := map (fun x => (x, None, None)) h.

Lemma fl_inputs_no_args h : fl_inputs (no_args h) = h.
Proof. unfold fl_inputs, no_args. rewrite map_map. cbn [fst]. apply map_id. Qed.

Lemma no_args_nth h t : snd (fst (nth t (no_args h) ([], None, None))) = None /\ snd (nth t (no_args h) ([], None, None)) = None.
Proof.
  unfold no_args. change (@nil (list Z), @None Q, @None Z) with ((fun x : list (list Z) => (x, @None Q, @None Z)) []).
  rewrite map_nth. split; reflexivity.
Qed.

Lemma flin_lane_cols c h b o : fl_calls c (no_args h) b o =
  map (fun x => (x, None, None)) (tab (length h) (fun t => [pc_out_at c h t b o])).
Proof.
  unfold fl_calls. rewrite fl_inputs_no_args, map_tab. unfold no_args at 1. rewrite map_length. apply tab_ext. intros t _.
  destruct (no_args_nth h t) as [-> ->]. reflexivity.
Qed.

Lemma zsum_map_single l : zsum (map zsum (map (fun x : Z => [x]) l)) = zsum l.
Proof. induction l as [|x l IH]; [reflexivity|]. cbn [map zsum] in *. rewrite IH. lia. Qed.

Lemma outs_tab_nth {S I O} (f : S -> I -> S * O) s h n d : length h = n -> tab n (fun t => nth t (outs f s h) d) = outs f s h.
Proof.
  intros <-. symmetry. rewrite (tab_of (outs f s h) d) at 1. rewrite outs_length. reflexivity.
Qed.

(** The output of the layer along a lane. *)
Lemma flin_floor c depth B h b o : pc_shape c -> (1 <= B)%nat -> 0 < flin_entry c ->
  (inject_Z (2 * flin_entry c - 1) <= qpow2 (depth - 2))%Q ->
  Forall (batch_ok B (pc_in c)) h -> (b < B)%nat -> (o < pc_out c)%nat ->
  ones (outs (fsuadd_call (flin_acc_cfg c None depth)) (fsuadd_init (flin_acc_cfg c None depth)) (fl_calls c (no_args h) b o)) =
  zsum (tab (length h) (fun t => pc_out_at c h t b o)) / flin_entry c.
Proof.
  intros Hs HB He Hd Hh Hb Ho. set (a := flin_acc_cfg c None depth). rewrite flin_lane_cols.
  unfold outs at 1. rewrite <- fsuadd_step_call.
  destruct h as [|x h]; [cbn; reflexivity|].
  set (T := fun t => pc_out_at c (x :: h) t b o).
  change (length (x :: h)) with (S (length h)).
  change (fun t => [pc_out_at c (x :: h) t b o]) with (fun t => [T t]).
  change (fun t => pc_out_at c (x :: h) t b o) with T.
  assert (Ecols : tab (S (length h)) (fun t => [T t]) = [T 0%nat] :: map (fun x => [x]) (map T (seq 1 (length h)))).
  { unfold tab. cbn [seq map]. rewrite map_map. reflexivity. }
  rewrite Ecols.
  fold (outs (fsuadd_step a) (fsuadd_init a) ([T 0%nat] :: map (fun x => [x]) (map T (seq 1 (length h))))).
  destruct (fsuadd_step_run a [T 0%nat] (map (fun x => [x]) (map T (seq 1 (length h))))) as [R _]. rewrite R. clear R.
  cbn [resolved_entry resolved_scale fa_entry fa_scale a flin_acc_cfg].
  set (off := mode_offset (fa_mode a) (flin_entry c) (inject_Z (flin_entry c))).
  assert (Hoff : (off == 0)%Q).
  { unfold off, mode_offset. destruct (fa_mode a); [reflexivity|]. setoid_replace (inject_Z (flin_entry c) - inject_Z (flin_entry c))%Q with 0%Q by ring. reflexivity. }
  rewrite <- Ecols.
  destruct (add_exact_sum (acc_lim (fa_depth a)) (flin_entry c) off (tab (S (length h)) (fun t => [T t])) He Hoff) as [_ R].
  - apply Forall_forall. intros col Hc. unfold tab in Hc. apply in_map_iff in Hc. destruct Hc as (t & <- & Ht). apply in_seq in Ht.
    cbn [zsum]. rewrite Z.add_0_r. apply (pc_out_range c B); [exact Hh| |exact Hb]. cbn [length]. lia.
  - exact Hd.
  - rewrite map_tab in R. cbn [zsum] in R.
    assert (ET : zsum (tab (S (length h)) (fun t => T t + 0)) = zsum (tab (S (length h)) T)).
    { f_equal. apply tab_ext. intros. lia. }
    rewrite ET in R.
    set (O := ones _) in *.
    apply (Zdiv_unique _ _ _ (zsum (tab (S (length h)) T) - flin_entry c * O)); lia.
Qed.

(** Ones of all product bits. *)
Lemma zsum_tab_swap n m (f : nat -> nat -> Z) : zsum (tab n (fun t => zsum (tab m (f t)))) = zsum (tab m (fun i => zsum (tab n (fun t => f t i)))).
Proof.
  induction n as [|n IH].
  - cbn. induction m as [|m IHm]; [reflexivity|]. rewrite tab_S, zsum_app, <- IHm. reflexivity.
  - rewrite tab_S, zsum_app, IH. cbn [zsum]. rewrite Z.add_0_r, <- zsum_tab_add. f_equal. apply tab_ext. intros i _.
    rewrite (tab_S n), zsum_app. cbn [zsum]. lia.
Qed.

Lemma flin_lane c depth B h : pc_shape c -> (1 <= B)%nat -> 0 < flin_entry c ->
  (inject_Z (2 * flin_entry c - 1) <= qpow2 (depth - 2))%Q ->
  Forall (batch_ok B (pc_in c)) h ->
  let a := flin_acc_cfg c None depth in
  exists os, outputs (run_r (flin_step c a) (flin_init c) (no_args h)) = Some os /\
    length os = length h /\ Forall (batch_ok B (pc_out c)) os /\
    forall b o, (b < B)%nat -> (o < pc_out c)%nat ->
      ones (lane os b o) = zsum (tab (length h) (fun t => pc_out_at c h t b o)) / flin_entry c.
Proof.
  intros Hs HB He Hd Hh a.
  destruct (flin_run c a B (no_args h) Hs HB) as (pc & _ & E); [rewrite fl_inputs_no_args; exact Hh|].
  rewrite E. clear E. eexists. split; [reflexivity|].
  assert (Lh : length (no_args h) = length h) by (unfold no_args; apply map_length). rewrite Lh.
  split; [apply tab_length|].
  assert (Lc : forall b o, length (fl_calls c (no_args h) b o) = length h).
  { intros. unfold fl_calls. rewrite tab_length. exact Lh. }
  assert (Hbits : forall b o, bits (outs (fsuadd_call a) (fsuadd_init a) (fl_calls c (no_args h) b o))).
  { intros b o. rewrite flin_lane_cols. unfold outs. rewrite <- fsuadd_step_call. apply fsuadd_bits. }
  split.
  - apply Forall_forall. intros x Hx. unfold tab in Hx. apply in_map_iff in Hx. destruct Hx as (t & <- & Ht). apply in_seq in Ht.
    split; [apply tab_length|]. apply Forall_forall. intros r Hr. unfold tab2, tab in Hr. apply in_map_iff in Hr.
    destruct Hr as (b & <- & _). split; [rewrite map_length, seq_length; reflexivity|].
    unfold bits. apply Forall_forall. intros z Hz. apply in_map_iff in Hz. destruct Hz as (o & <- & _).
    apply (Forall_nth_lt bit _ t 0 (Hbits b o)). rewrite outs_length, Lc. lia.
  - intros b o Hb Ho. rewrite <- (flin_floor c depth B h b o Hs HB He Hd Hh Hb Ho). fold a. f_equal.
    unfold lane. rewrite map_tab.
    rewrite <- (outs_tab_nth (fsuadd_call a) (fsuadd_init a) (fl_calls c (no_args h) b o) (length h) 0 (Lc b o)).
    apply tab_ext. intros t Ht. apply tab2_entry; assumption.
Qed.

Lemma ones_tab xs : bits xs -> ones xs = zsum (tab (length xs) (fun t => nth t xs 0)).
Proof. intros H. rewrite <- (zsum_ones xs H). f_equal. apply tab_of. Qed.

Lemma pc_total c h b o : zsum (tab (length h) (fun t => pc_out_at c h t b o)) =
  zsum (tab (pc_in c) (fun i => zsum (tab (length h) (fun t =>
    pc_prod c o i (pc_idx1 c (firstn t h) b i) (pc_idx0 c (firstn t h) b i) (entry2 (nth t h []) b i)))))
  + zsum (tab (length h) (fun t => pc_bbit c o (Z.of_nat t))).
Proof. unfold pc_out_at. rewrite zsum_tab_add, zsum_tab_swap. reflexivity. Qed.

Definition bias_ones (c : pc_cfg) (o n : nat) : Z :=
  match pc_bias c with None => 0 | Some bs => ones (bsgen_stream (nth o bs 0) (pc_rng c) 0 n) end.

Lemma bsgen_stream_tab B rng n : bsgen_stream B rng 0 n = tab n (fun t => bsgen_bit B rng (Z.of_nat t)).
Proof. reflexivity. Qed.

Lemma bsgen_stream_bits B rng s n : bits (bsgen_stream B rng s n).
Proof. unfold bits, bsgen_stream. rewrite Forall_map. apply Forall_forall. intros. apply bsgen_bit_bit. Qed.

Lemma bias_ones_tab c o n : zsum (tab n (fun t => pc_bbit c o (Z.of_nat t))) = bias_ones c o n.
Proof.
  unfold bias_ones, pc_bbit. destruct (pc_bias c) as [bs|].
  - rewrite <- zsum_ones by apply bsgen_stream_bits. reflexivity.
  - induction n as [|n IH]; [reflexivity|]. rewrite tab_S, zsum_app, IH. reflexivity.
Qed.

Lemma pc_total_rate c B h b o : pc_wtc c = false -> rng_ok c -> Forall (batch_ok B (pc_in c)) h -> (b < B)%nat ->
  zsum (tab (length h) (fun t => pc_out_at c h t b o)) =
  zsum (map (fun i => ones (outs (fsumul_static_step (pc_mode c) (entry2 (pc_weight c) o i) (pc_rng c))
                                 fsumul_static_init (lane h b i))) (seq 0 (pc_in c)))
  + bias_ones c o (length h).
Proof.
  intros Hw Hr Hh Hb. rewrite pc_total, bias_ones_tab. f_equal. f_equal. apply tab_ext. intros i Hi.
  pose proof (lane_bits B (pc_in c) h b i Hh Hb Hi) as Hl.
  destruct (mul_static_count (pc_mode c) (entry2 (pc_weight c) o i) (pc_rng c) (lane h b i) Hr Hl) as [Ho _].
  rewrite (ones_tab _ Ho), outs_length, lane_length. f_equal. apply tab_ext. intros t Ht.
  apply (pc_prod_rate c B); assumption.
Qed.

Lemma pc_total_temporal c B h b o : pc_wtc c = true -> Forall (batch_ok B (pc_in c)) h -> (b < B)%nat ->
  zsum (tab (length h) (fun t => pc_out_at c h t b o)) =
  zsum (map (fun i => zsum (map (fun t => product_bit (pc_mode c) (nth t (lane h b i) 0)
           (bsgen_bit (entry2 (pc_weight c) o i) (pc_rng c) (Z.of_nat t))) (seq 0 (length h)))) (seq 0 (pc_in c)))
  + bias_ones c o (length h).
Proof.
  intros Hw Hh Hb. rewrite pc_total, bias_ones_tab. f_equal. f_equal. apply tab_ext. intros i Hi.
  f_equal. apply tab_ext. intros t Ht. rewrite lane_nth. apply (pc_prod_temporal c B); assumption.
Qed.

Theorem flin_rate : forall c depth B h, pc_shape c -> rng_ok c -> pc_wtc c = false -> (1 <= B)%nat ->
  0 < flin_entry c -> (inject_Z (2 * flin_entry c - 1) <= qpow2 (depth - 2))%Q ->
  Forall (batch_ok B (pc_in c)) h ->
  exists os, outputs (run_r (flin_step c (flin_acc_cfg c None depth)) (flin_init c) (no_args h)) = Some os /\
    length os = length h /\ Forall (batch_ok B (pc_out c)) os /\
    forall b o, (b < B)%nat -> (o < pc_out c)%nat ->
      ones (lane os b o) =
      (zsum (map (fun i => ones (outs (fsumul_static_step (pc_mode c) (entry2 (pc_weight c) o i) (pc_rng c))
                                      fsumul_static_init (lane h b i))) (seq 0 (pc_in c)))
       + match pc_bias c with None => 0 | Some bs => ones (bsgen_stream (nth o bs 0) (pc_rng c) 0 (length h)) end)
      / (Z.of_nat (pc_in c) + match pc_bias c with None => 0 | Some _ => 1 end).
Proof.
  intros c depth B h Hs Hr Hw HB He Hd Hh.
  destruct (flin_lane c depth B h Hs HB He Hd Hh) as (os & E & L & Sh & H).
  exists os. split; [exact E|]. split; [exact L|]. split; [exact Sh|]. intros b o Hb Ho.
  rewrite (H b o Hb Ho), (pc_total_rate c B h b o Hw Hr Hh Hb). reflexivity.
Qed.

Theorem flin_temporal : forall c depth B h, pc_shape c -> pc_wtc c = true -> (1 <= B)%nat ->
  0 < flin_entry c -> (inject_Z (2 * flin_entry c - 1) <= qpow2 (depth - 2))%Q ->
  Forall (batch_ok B (pc_in c)) h ->
  exists os, outputs (run_r (flin_step c (flin_acc_cfg c None depth)) (flin_init c) (no_args h)) = Some os /\
    length os = length h /\ Forall (batch_ok B (pc_out c)) os /\
    forall b o, (b < B)%nat -> (o < pc_out c)%nat ->
      ones (lane os b o) =
      (zsum (map (fun i => zsum (map (fun t => product_bit (pc_mode c) (nth t (lane h b i) 0)
                (bsgen_bit (entry2 (pc_weight c) o i) (pc_rng c) (Z.of_nat t))) (seq 0 (length h)))) (seq 0 (pc_in c)))
       + match pc_bias c with None => 0 | Some bs => ones (bsgen_stream (nth o bs 0) (pc_rng c) 0 (length h)) end)
      / (Z.of_nat (pc_in c) + match pc_bias c with None => 0 | Some _ => 1 end).
Proof.
  intros c depth B h Hs Hw HB He Hd Hh.
  destruct (flin_lane c depth B h Hs HB He Hd Hh) as (os & E & L & Sh & H).
  exists os. split; [exact E|]. split; [exact L|]. split; [exact Sh|]. intros b o Hb Ho.
  rewrite (H b o Hb Ho), (pc_total_temporal c B h b o Hw Hh Hb). reflexivity.
Qed.

(** ** Full periods *)
Lemma zsum_tab_mul n f k : zsum (tab n f) * k = zsum (tab n (fun i => f i * k)).
Proof. induction n as [|n IH]; [reflexivity|]. rewrite !tab_S, !zsum_app, <- IH. cbn [zsum]. lia. Qed.

Lemma bias_ones_full c w o n : perm_seq w (pc_rng c) -> (p2 w | Z.of_nat n) ->
  match pc_bias c with None => True | Some bs => in_range w (nth o bs 0) end ->
  bias_ones c o n * p2 w = match pc_bias c with None => 0 | Some bs => Z.of_nat n * nth o bs 0 end.
Proof.
  intros HP Hn Hb. unfold bias_ones. destruct (pc_bias c) as [bs|]; [|reflexivity].
  rewrite <- below_stream by (apply (perm_seq_len_pos w), HP).
  rewrite <- (Nat2Z.id n) at 1. apply below_full; [exact HP|exact Hb|lia|exact Hn].
Qed.

Lemma div_scaled tot S k e : 0 < k -> 0 < e -> tot * k = S -> tot / e = S / (k * e).
Proof. intros Hk He <-. rewrite (Z.mul_comm tot k). rewrite Z.div_mul_cancel_l by lia. reflexivity. Qed.

Definition bias_at (c : pc_cfg) (o : nat) : option Z :=
  match pc_bias c with None => None | Some bs => Some (nth o bs 0) end.

Definition flin_weighted (c : pc_cfg) (w : nat) (h : list (list (list Z))) (b o : nat) : Z :=
  layer_weight (pc_mode c) w (pc_in c) (nth o (pc_weight c) []) (bias_at c o) (lane h b) (zlen h).

Theorem flin_full : forall c depth B h w, pc_shape c -> perm_seq w (pc_rng c) -> pc_wtc c = false -> (1 <= B)%nat ->
  0 < flin_entry c -> (inject_Z (2 * flin_entry c - 1) <= qpow2 (depth - 2))%Q ->
  Forall (batch_ok B (pc_in c)) h ->
  Forall (Forall (in_range w)) (pc_weight c) -> match pc_bias c with None => True | Some bs => Forall (in_range w) bs end ->
  (p2 w | zlen h) ->
  (forall b i, (b < B)%nat -> (i < pc_in c)%nat -> full_periods (pc_mode c) w (lane h b i)) ->
  exists os, outputs (run_r (flin_step c (flin_acc_cfg c None depth)) (flin_init c) (no_args h)) = Some os /\
    length os = length h /\ Forall (batch_ok B (pc_out c)) os /\
    forall b o, (b < B)%nat -> (o < pc_out c)%nat ->
      ones (lane os b o) = flin_weighted c w h b o / (p2 w * flin_entry c).
Proof.
  intros c depth B h w Hs HP Hw HB He Hd Hh HW Hbias HT Hfull.
  assert (Hr : rng_ok c) by (apply (perm_seq_len_pos w), HP).
  destruct (flin_lane c depth B h Hs HB He Hd Hh) as (os & E & L & Sh & H).
  exists os. split; [exact E|]. split; [exact L|]. split; [exact Sh|]. intros b o Hb Ho.
  rewrite (H b o Hb Ho), (pc_total_rate c B h b o Hw Hr Hh Hb).
  apply div_scaled; [apply p2_pos|exact He|]. unfold flin_weighted, layer_weight, bias_at.
  rewrite Z.mul_add_distr_r. f_equal.
  - change (map ?f (seq 0 (pc_in c))) with (tab (pc_in c) f). rewrite zsum_tab_mul.
    change (map ?f (seq 0 (pc_in c))) with (tab (pc_in c) f). f_equal. apply tab_ext. intros i Hi.
    destruct (Hfull b i Hb Hi) as [F1 F0]. apply mul_static_exact; try assumption.
    + destruct Hs as (H1 & H2 & _). unfold entry2.
      assert (HWo : Forall (in_range w) (nth o (pc_weight c) [])) by (apply (Forall_nth_lt _ _ o [] HW); lia).
      apply (Forall_nth_lt _ _ i 0 HWo). rewrite (Forall_nth_lt _ _ o [] H2) by lia. exact Hi.
    + apply (lane_bits B (pc_in c)); assumption.
  - replace (match match pc_bias c with None => None | Some bs => Some (nth o bs 0) end with None => 0 | Some b0 => zlen h * b0 end)
      with (match pc_bias c with None => 0 | Some bs => zlen h * nth o bs 0 end) by (destruct (pc_bias c); reflexivity).
    apply bias_ones_full; [exact HP|exact HT|]. destruct Hs as (_ & _ & Hl). destruct (pc_bias c) as [bs|]; [|exact I].
    apply (Forall_nth_lt _ _ o 0 Hbias). lia.
Qed.

Lemma inject_pos' a : 0 < a -> (0 < inject_Z a)%Q.
Proof. apply inject_Z_pos. Qed.

Lemma value_affine m xs : bits xs -> xs <> [] -> (value m xs == mode_affine m (inject_Z (ones xs) / inject_Z (zlen xs)))%Q.
Proof.
  intros Hb Hne. destruct m; [reflexivity|]. unfold value, mode_affine.
  assert (L : 0 < zlen xs) by (destruct xs; [contradiction|unfold zlen; cbn [length]; lia]).
  pose proof (inject_pos' _ L). setoid_replace (inject_Z (walk xs)) with (2 * inject_Z (ones xs) - inject_Z (zlen xs))%Q.
  - field. lra.
  - change 2%Q with (inject_Z 2). unfold Qminus. rewrite <- inject_Z_mult, <- inject_Z_opp, <- inject_Z_plus. apply inject_Z_eq.
    unfold walk. pose proof (ones_zeros xs Hb). lia.
Qed.

Lemma product_affine m w B xs : bits xs -> xs <> [] ->
  (value m xs * grid_value m w B ==
   mode_affine m (inject_Z (product_weight m w B xs) / (inject_Z (zlen xs) * inject_Z (p2 w))))%Q.
Proof.
  intros Hb Hne. assert (L : 0 < zlen xs) by (destruct xs; [contradiction|unfold zlen; cbn [length]; lia]).
  pose proof (inject_pos' _ L) as P1. pose proof (inject_pos' _ (p2_pos w)) as P2.
  rewrite (value_affine m xs Hb Hne). unfold product_weight, grid_value, mode_affine. destruct m.
  - rewrite Z.add_0_r, inject_Z_mult. field. split; lra.
  - replace (zeros xs) with (zlen xs - ones xs) by (pose proof (ones_zeros xs Hb); lia).
    unfold Z.sub. rewrite !inject_Z_plus, !inject_Z_mult, !inject_Z_plus, !inject_Z_opp. field. split; lra.
Qed.

Lemma qsum_app l1 l2 : (qsum (l1 ++ l2) == qsum l1 + qsum l2)%Q.
Proof. induction l1 as [|x l IH]; cbn [app qsum]; [ring|rewrite IH; ring]. Qed.

Lemma qsum_tab_ext n f g : (forall i, (i < n)%nat -> (f i == g i)%Q) -> (qsum (tab n f) == qsum (tab n g))%Q.
Proof.
  induction n as [|n IH]; intros H; [reflexivity|]. rewrite !tab_S, !qsum_app, IH by (intros; apply H; lia).
  cbn [qsum]. rewrite (H n) by lia. reflexivity.
Qed.

Lemma qsum_affine m n f : (qsum (tab n (fun i => mode_affine m (f i))) ==
  match m with Unipolar => qsum (tab n f) | Bipolar => 2 * qsum (tab n f) - inject_Z (Z.of_nat n) end)%Q.
Proof.
  destruct m; [reflexivity|]. induction n as [|n IH]; [reflexivity|].
  rewrite !tab_S, !qsum_app, IH. cbn [qsum]. unfold mode_affine. rewrite Nat2Z.inj_succ, <- Z.add_1_r, inject_Z_plus.
  change (inject_Z 1) with 1%Q. ring.
Qed.

Lemma qsum_inject n f d : (qsum (tab n (fun i => inject_Z (f i) / d)) == inject_Z (zsum (tab n f)) / d)%Q.
Proof.
  induction n as [|n IH]; [cbn; unfold Qdiv; ring|].
  rewrite !tab_S, qsum_app, IH, zsum_app. cbn [qsum zsum]. rewrite !inject_Z_plus. unfold Qdiv. ring.
Qed.

Lemma exact_layer_affine c w h b o B : Forall (batch_ok B (pc_in c)) h -> h <> [] -> (b < B)%nat -> 0 < flin_entry c ->
  (exact_layer (pc_mode c) w (pc_in c) (nth o (pc_weight c) []) (bias_at c o) (lane h b) ==
   mode_affine (pc_mode c) (inject_Z (flin_weighted c w h b o) / (inject_Z (zlen h) * inject_Z (p2 w) * inject_Z (flin_entry c))))%Q.
Proof.
  intros Hh Hne Hb He. assert (L : 0 < zlen h) by (destruct h; [contradiction|unfold zlen; cbn [length]; lia]).
  pose proof (inject_pos' _ L) as P1. pose proof (inject_pos' _ (p2_pos w)) as P2. pose proof (inject_pos' _ He) as P3.
  unfold exact_layer, bias_at.
  assert (E1 : (qsum (map (fun i => value (pc_mode c) (lane h b i) * grid_value (pc_mode c) w (nth i (nth o (pc_weight c) []) 0%Z)) (seq 0 (pc_in c))) ==
     qsum (tab (pc_in c) (fun i => mode_affine (pc_mode c) (inject_Z (product_weight (pc_mode c) w (entry2 (pc_weight c) o i) (lane h b i)) / (inject_Z (zlen h) * inject_Z (p2 w))))))%Q).
  { apply qsum_tab_ext. intros i Hi. rewrite product_affine.
    - unfold zlen at 1. rewrite lane_length. reflexivity.
    - apply (lane_bits B (pc_in c)); assumption.
    - intros E0. apply (f_equal (@length Z)) in E0. rewrite lane_length in E0. destruct h; [contradiction|discriminate]. }
  rewrite E1, qsum_affine. clear E1.
  pose proof (qsum_inject (pc_in c) (fun i => product_weight (pc_mode c) w (entry2 (pc_weight c) o i) (lane h b i))
    (inject_Z (zlen h) * inject_Z (p2 w))%Q) as EI. cbn beta in EI.
  set (X := qsum _) in *. unfold flin_weighted, layer_weight, bias_at, flin_entry in *.
  change (map (fun i => product_weight (pc_mode c) w (nth i (nth o (pc_weight c) []) 0) (lane h b i)) (seq 0 (pc_in c)))
    with (tab (pc_in c) (fun i => product_weight (pc_mode c) w (entry2 (pc_weight c) o i) (lane h b i))).
  set (Y := zsum _) in *. clearbody X Y.
  destruct (pc_bias c) as [bs|].
  - rewrite !inject_Z_plus, inject_Z_mult. rewrite inject_Z_plus in P3. change (inject_Z 1) with 1%Q in *. unfold mode_affine, grid_value. destruct (pc_mode c); rewrite EI; field; repeat split; lra.
  - rewrite !Z.add_0_r in *. unfold mode_affine. destruct (pc_mode c); rewrite EI; field; repeat split; lra.
Qed.

Theorem flin_full_value : forall c depth B h w, pc_shape c -> perm_seq w (pc_rng c) -> pc_wtc c = false -> (1 <= B)%nat ->
  0 < flin_entry c -> (inject_Z (2 * flin_entry c - 1) <= qpow2 (depth - 2))%Q ->
  Forall (batch_ok B (pc_in c)) h -> h <> [] ->
  Forall (Forall (in_range w)) (pc_weight c) -> match pc_bias c with None => True | Some bs => Forall (in_range w) bs end ->
  (p2 w | zlen h) ->
  (forall b i, (b < B)%nat -> (i < pc_in c)%nat -> full_periods (pc_mode c) w (lane h b i)) ->
  exists os, outputs (run_r (flin_step c (flin_acc_cfg c None depth)) (flin_init c) (no_args h)) = Some os /\
    forall b o, (b < B)%nat -> (o < pc_out c)%nat ->
      let exact := exact_layer (pc_mode c) w (pc_in c) (nth o (pc_weight c) []) (bias_at c o) (lane h b) in
      (value (pc_mode c) (lane os b o) <= exact)%Q /\
      (exact < value (pc_mode c) (lane os b o) + match pc_mode c with Unipolar => 1 | Bipolar => 2 end / inject_Z (zlen h))%Q /\
      ((p2 w * flin_entry c | flin_weighted c w h b o) -> (value (pc_mode c) (lane os b o) == exact)%Q).
Proof.
  intros c depth B h w Hs HP Hw HB He Hd Hh Hne HW Hbias HT Hfull.
  destruct (flin_full c depth B h w Hs HP Hw HB He Hd Hh HW Hbias HT Hfull) as (os & E & L & Sh & H).
  exists os. split; [exact E|]. intros b o Hb Ho. cbn zeta.
  rewrite (exact_layer_affine c w h b o B Hh Hne Hb He).
  assert (Lh : 0 < zlen h) by (destruct h; [contradiction|unfold zlen; cbn [length]; lia]).
  assert (Lz : zlen (lane os b o) = zlen h) by (unfold zlen; rewrite lane_length, L; reflexivity).
  rewrite (value_affine (pc_mode c) (lane os b o)).
  2:{ apply (lane_bits B (pc_out c)); assumption. }
  2:{ intros E0. rewrite E0 in Lz. cbn in Lz. lia. }
  rewrite Lz, (H b o Hb Ho).
  pose proof (inject_pos' _ Lh) as P1. pose proof (inject_pos' _ (p2_pos w)) as P2. pose proof (inject_pos' _ He) as P3.
  pose proof (p2_pos w) as Pz.
  set (S := flin_weighted c w h b o). set (k := p2 w * flin_entry c).
  assert (Hk : 0 < k) by (unfold k; nia). pose proof (inject_pos' _ Hk) as Pk.
  assert (Ek : (inject_Z k == inject_Z (p2 w) * inject_Z (flin_entry c))%Q) by (unfold k; rewrite inject_Z_mult; reflexivity).
  pose proof (Z.div_mod S k ltac:(lia)) as DM. pose proof (Z.mod_pos_bound S k Hk) as MB.
  assert (EQ : (inject_Z S / (inject_Z (zlen h) * inject_Z (p2 w) * inject_Z (flin_entry c)) ==
               inject_Z (S / k) / inject_Z (zlen h) + (inject_Z (S mod k) / inject_Z k) / inject_Z (zlen h))%Q).
  { rewrite DM at 1. rewrite inject_Z_plus, inject_Z_mult, Ek. field. repeat split; lra. }
  set (q := (inject_Z (S mod k) / inject_Z k)%Q) in *.
  assert (Q0 : (0 <= q)%Q).
  { apply Qle_shift_div_l; [exact Pk|]. rewrite Qmult_0_l. change 0%Q with (inject_Z 0). apply inject_Z_le_iff. lia. }
  assert (Q1 : (q < 1)%Q).
  { apply Qlt_shift_div_r; [exact Pk|]. rewrite Qmult_1_l. apply inject_Z_lt_iff. lia. }
  assert (R0 : (0 <= q / inject_Z (zlen h))%Q) by (apply Qle_shift_div_l; [exact P1|lra]).
  assert (R1 : (q / inject_Z (zlen h) < 1 / inject_Z (zlen h))%Q).
  { apply Qlt_shift_div_r; [exact P1|]. setoid_replace (1 / inject_Z (zlen h) * inject_Z (zlen h))%Q with 1%Q by (field; lra). exact Q1. }
  assert (E2 : (2 / inject_Z (zlen h) == 2 * (1 / inject_Z (zlen h)))%Q) by (field; lra).
  split; [|split].
  - unfold mode_affine. destruct (pc_mode c); rewrite EQ; lra.
  - unfold mode_affine. destruct (pc_mode c); rewrite EQ, ?E2; lra.
  - intros D. apply Z.mod_divide in D; [|lia]. assert (Eq0 : (q == 0)%Q) by (unfold q; rewrite D; unfold Qdiv; ring).
    assert (Er : (q / inject_Z (zlen h) == 0)%Q) by (rewrite Eq0; unfold Qdiv; ring).
    unfold mode_affine. destruct (pc_mode c); rewrite EQ, Er; ring.
Qed.

(** ** Changing the batch size *)
Lemma pc_batch_shrink : forall c B h x, pc_shape c -> (2 <= B)%nat -> h <> [] ->
  Forall (batch_ok B (pc_in c)) h -> batch_ok 1 (pc_in c) [x] ->
  exists os o, outputs (run_r (pc_step c) (pc_init c) (h ++ [[x]])) = Some (os ++ [o]) /\ length os = length h /\ length o = B.
Proof.
  intros c B h x Hs HB Hne Hh Hx. rewrite run_r_snoc, (pc_run c B h Hs ltac:(lia) Hh).
  replace (rows_after c B h) with B by (destruct h; [contradiction|reflexivity]).
  destruct Hx as [_ Hx]. inversion Hx as [|? ? [Hx1 _] _]; subst.
  unfold pc_step at 1. cbn [length Nat.eqb forallb negb andb].
  rewrite (proj2 (Nat.eqb_eq _ _) Hx1). cbn [andb negb].
  assert (Ex : forall A (l : list A), length l = B -> expand 1 l = l).
  { intros A l Hl. unfold expand. rewrite Hl. destruct (Nat.eqb_spec B 1); [lia|]. cbn [repeat concat]. apply app_nil_r. }
  assert (L1 : length (tab3 B (pc_out c) (pc_in c) (fun b _ i => pc_idx1 c h b i)) = B) by apply tab_length.
  unfold pc_tab. cbn [pc_i1 pc_i0 pc_brdx]. rewrite (Ex _ _ L1), L1.
  unfold bcast. cbn [length]. destruct (Nat.eqb_spec 1 B); [lia|]. cbn [bind].
  rewrite wbits_tab by exact Hs. rewrite Ex by apply tab_length.
  set (xr := repeat x B). assert (Lx : length xr = B) by apply repeat_length.
  assert (Lm : forall w v, length w = B -> length v = B -> length (matmul v w) = B).
  { intros w v Hw Hv. unfold matmul. rewrite map2_length by lia. exact Hw. }
  set (o1 := matmul xr _). assert (Lo : length o1 = B) by (apply Lm; [apply tab_length|exact Lx]).
  assert (G : forall (o : list (list Z)) s1, length o = B ->
    exists os o', outputs match @Ok (pc_st * list (list Z)) (s1, o) with Ok (s2, o) => Ok (s2, tab (length h) (fun t => tab2 B (pc_out c) (pc_out_at c h t)) ++ [o]) | Err e => Err e end = Some (os ++ [o']) /\
       length os = length h /\ length o' = B).
  { intros o s1 Hl. eexists _, _. split; [reflexivity|]. split; [apply tab_length|exact Hl]. }
  assert (Lb : length match pc_bias c with
       | None => o1
       | Some b => map (fun r => map2 Z.add r (map2 (fun v i => bsgen_bit v (pc_rng c) i) b match pc_bias c with None => [] | Some _ => repeat (zlen h) (pc_out c) end)) o1 end = B).
  { destruct (pc_bias c); [rewrite map_length|]; exact Lo. }
  assert (L2 : forall p q : list (list Z), length p = B -> length q = B -> length (add2 p q) = B).
  { intros p q Hp Hq. unfold add2. rewrite map2_length; lia. }
  destruct (pc_mode c) eqn:Em; [apply G, Lb|].
  destruct (pc_wtc c) eqn:Ew; cbn [negb]; apply G; apply L2; try exact Lb; apply Lm; rewrite ?map_length; try exact Lx.
  - unfold neg3. rewrite map_length. apply tab_length.
  - unfold i0_used. rewrite Em, Ew. cbn [negb]. rewrite wbits_tab by exact Hs.
    rewrite Ex; unfold neg3; rewrite map_length; apply tab_length.
Qed.

Lemma pc_batch_mismatch : forall c B B' h x, pc_shape c -> (2 <= B)%nat -> h <> [] ->
  Forall (batch_ok B (pc_in c)) h -> batch_ok B' (pc_in c) x -> B' <> B -> B' <> 1%nat ->
  run_r (pc_step c) (pc_init c) (h ++ [x]) = Err RuntimeError.
Proof.
  intros c B B' h x Hs HB Hne Hh [Hx1 Hx2] H1 H2. rewrite run_r_snoc, (pc_run c B h Hs ltac:(lia) Hh).
  replace (rows_after c B h) with B by (destruct h; [contradiction|reflexivity]).
  unfold pc_step at 1. rewrite Hx1. destruct (Nat.eqb_spec B' 0) as [E0|E0]; [reflexivity|].
  rewrite forallb_len by (eapply Forall_impl; [|exact Hx2]; intros r [Hr _]; exact Hr). cbn [negb].
  unfold pc_tab. cbn [pc_i1 pc_i0 pc_brdx].
  assert (Le : length (expand B' (tab3 B (pc_out c) (pc_in c) (fun b _ i => pc_idx1 c h b i))) = (B' * B)%nat).
  { unfold expand. unfold tab3 at 1. rewrite tab_length. destruct (Nat.eqb_spec B B'); [lia|].
    set (t := tab3 _ _ _ _). assert (Lt : length t = B) by apply tab_length. clearbody t. clear -Lt.
    induction B' as [|n IH]; [reflexivity|]. cbn [repeat concat]. rewrite app_length, IH, Lt. lia. }
  unfold bcast. rewrite Le, Hx1. destruct (Nat.eqb_spec B' (B' * B)) as [E|E]; [nia|].
  destruct x as [|r [|r' x]]; [reflexivity|cbn in Hx1; lia|reflexivity].
Qed.

(** ** Construction *)
Definition pc_args_ok (ni no : nat) (bias : bool) (we : option (list (list Q))) (be : option (list Q)) (winit : list (list Q)) : Prop :=
  match we with None => shape2 no ni winit = true | Some w => shape2 no ni w = true end /\
  match be with None => True | Some b => bias = true -> length b = no end.

Lemma shape2_map {A B} (f : A -> B) r c m : shape2 r c m = true ->
  length (map (map f) m) = r /\ Forall (fun row => length row = c) (map (map f) m).
Proof.
  unfold shape2. intros H. apply andb_true_iff in H. destruct H as [H1 H2]. apply Nat.eqb_eq in H1.
  split; [rewrite map_length; exact H1|]. rewrite Forall_map. apply Forall_forall. intros row Hr.
  rewrite forallb_forall in H2. rewrite map_length. apply Nat.eqb_eq, H2, Hr.
Qed.

Theorem pc_new_outcome : forall ext ni no bias we be winit width m_name r_name dimr m k,
  mode_parse m_name = Ok m -> rng_parse r_name = Ok k -> pc_args_ok ni no bias we be winit ->
  match pc_new ext ni no bias we be winit width m_name r_name dimr with
  | Err e => e = AttributeError /\ bias = true /\ be = None
  | Ok c => ~ (bias = true /\ be = None) /\ pc_shape c /\ pc_mode c = m /\ pc_wtc c = is_tc k /\
            pc_in c = ni /\ pc_out c = no /\ (pc_bias c = None <-> bias = false)
  end.
Proof.
  intros ext ni no bias we be winit width mn rn dimr m k Hm Hk [Hw Hb]. unfold pc_new. rewrite Hm, Hk. cbn [bind].
  destruct we as [we|].
  - rewrite Hw. cbn [bind]. destruct bias; [destruct be as [be|]|].
    + rewrite (Hb eq_refl), Nat.eqb_refl. cbn [bind].
      split; [intros [_ H]; discriminate|]. unfold pc_shape. cbn.
      destruct (shape2_map (bingen m width) _ _ _ Hw) as [S1 S2].
      split; [split; [exact S1|split; [exact S2|rewrite map_length; apply Hb; reflexivity]]|].
      repeat (split; [reflexivity|]). split; discriminate.
    + cbn. split; [reflexivity|split; reflexivity].
    + cbn [bind]. split; [intros [H _]; discriminate|]. unfold pc_shape. cbn.
      destruct (shape2_map (bingen m width) _ _ _ Hw) as [S1 S2].
      split; [split; [exact S1|split; [exact S2|exact I]]|]. repeat (split; [reflexivity|]). split; reflexivity.
  - cbn [bind]. destruct (shape2_map Qceiling _ _ _ Hw) as [S1 S2]. destruct bias; [destruct be as [be|]|].
    + rewrite (Hb eq_refl), Nat.eqb_refl. cbn [bind].
      split; [intros [_ H]; discriminate|]. unfold pc_shape. cbn.
      split; [split; [exact S1|split; [exact S2|rewrite map_length; apply Hb; reflexivity]]|].
      repeat (split; [reflexivity|]). split; discriminate.
    + cbn. split; [reflexivity|split; reflexivity].
    + cbn [bind]. split; [intros [H _]; discriminate|]. unfold pc_shape. cbn.
      split; [split; [exact S1|split; [exact S2|exact I]]|]. repeat (split; [reflexivity|]). split; reflexivity.
Qed.

Theorem flin_new_outcome : forall ext ni no bias we be winit width m_name r_name dimr scale depth m k,
  mode_parse m_name = Ok m -> rng_parse r_name = Ok k -> pc_args_ok ni no bias we be winit ->
  (scale = None \/ m = Unipolar \/ is_tc k = false) ->
  match flin_new ext ni no bias we be winit width m_name r_name dimr scale depth with
  | Err e => e = AttributeError /\ bias = true /\ be = None
  | Ok (c, a) => ~ (bias = true /\ be = None) /\ pc_shape c /\ pc_mode c = m /\ pc_wtc c = is_tc k /\
            pc_in c = ni /\ pc_out c = no /\ (pc_bias c = None <-> bias = false) /\ a = flin_acc_cfg c scale depth
  end.
Proof.
  intros ext ni no bias we be winit width mn rn dimr scale depth m k Hm Hk Ha Hs. unfold flin_new.
  pose proof (pc_new_outcome ext ni no bias we be winit width mn rn dimr m k Hm Hk Ha) as H.
  rewrite Hk.
  assert (E : ((lower mn =? "bipolar")%string && match scale with None => false | Some q => negb (Qeq_bool q (inject_Z (Z.of_nat ni + b2z bias))) end && is_tc k)%bool = false).
  { destruct Hs as [->|[->| ->]].
    - rewrite andb_false_r. reflexivity.
    - unfold mode_parse in Hm. destruct (lower mn =? "bipolar")%string eqn:E; [|reflexivity].
      apply String.eqb_eq in E. rewrite E in Hm. cbn in Hm. discriminate.
    - apply andb_false_r. }
  rewrite E. clear E.
  destruct (pc_new ext ni no bias we be winit width mn rn dimr) as [c|e]; cbn [bind]; [|exact H].
  destruct H as (H1 & H2 & H3 & H4 & H5 & H6 & H7). repeat (split; [assumption|]). reflexivity.
Qed.
