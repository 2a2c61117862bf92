(** Proofs about SkewedSync, Bi2Uni and Uni2Bi in the element types of torch. *)
From Coq Require Import Lia ZifyBool.
Require Import Verif.BaseLemmas.
Require Export Verif.DtypeCountProof.
Open Scope Z_scope.

(** ** SkewedSync *)
Lemma sync_sum st in_1 in_2 : In st torch_dtypes -> bit in_1 -> bit in_2 -> (cast st (in_1 + in_2) =? 1) = (in_1 + in_2 =? 1).
Proof.
  intros H. cbn [torch_dtypes In] in H. intros [->| ->] [->| ->];
  (repeat (destruct H as [<-|H]; [vm_compute; reflexivity|]); contradiction).
Qed.
Lemma sync_out st in_1 (e lo hi : bool) : In st torch_dtypes -> bit in_1 ->
  cast st (in_1 + cast st (b2z e * cast st (cast st (b2z lo * cast st (1 - in_1)) + cast st (cast st (0 - b2z hi) * in_1)))) =
  in_1 + b2z e * (b2z lo * (1 - in_1) + (0 - b2z hi) * in_1).
Proof.
  intros H. cbn [torch_dtypes In] in H. intros [->| ->]; destruct e, lo, hi;
  (repeat (destruct H as [<-|H]; [vm_compute; reflexivity|]); contradiction).
Qed.

(** One step, in terms of the upper bound M. *)
Lemma sync_dt_next st bt depth cnt in_1 in_2 M : In st torch_dtypes -> wf_dtype bt -> bit in_1 -> bit in_2 ->
  const_dt bt (p2 depth - 1) = M -> cast bt M = M ->
  sync_dt_step st bt depth cnt (in_1, in_2) =
    (zclamp 0 M (cast bt (cnt + cast bt (b2z (in_1 + in_2 =? 1) * cast bt (pm1_dt st in_1)))),
     (in_1 + b2z (in_1 + in_2 =? 1) * (b2z (negb (cnt =? 0)) * (1 - in_1) + (0 - b2z (negb (cnt =? M))) * in_1), in_2)).
Proof.
  intros Hs W H1 H2 HM HC. unfold sync_dt_step, clamp_dt.
  rewrite HM, HC, cast_0, sync_sum by assumption. rewrite sync_out by assumption. reflexivity.
Qed.

Lemma sync_dt_exact st bt depth h : In st torch_dtypes -> In bt torch_dtypes -> (1 <= depth)%nat ->
  (depth <= Nat.min (room bt) 24)%nat -> keeps_minus st bt -> Forall bit2 h ->
  outs (sync_dt_step st bt depth) 0 h = outs (skewedsync_step depth) skewedsync_init h.
Proof.
  intros Hs Hb D1 L K F. pose proof (torch_wf bt Hb) as W. pose proof (p2_ge_1 depth) as P.
  assert (RE : forall z, -1 <= z <= p2 depth -> cast bt z = z) by (intros z; apply room_exact; lia || assumption).
  assert (C1 : const_dt bt (p2 depth - 1) = p2 depth - 1).
  { unfold const_dt. assert (Z32 : cast t_float32 (p2 depth - 1) = p2 depth - 1).
    { apply fl_small; [lia|]. pose proof (p2_le depth 24 ltac:(lia)). lia. }
    rewrite Z32. apply RE. lia. }
  apply (outs_same _ _ (fun s => 0 <= s <= p2 depth - 1) bit2); [|unfold skewedsync_init; lia|assumption].
  intros s [x y] Hz [Hx Hy]. cbn [fst snd] in Hx, Hy.
  rewrite (sync_dt_next st bt depth s x y (p2 depth - 1)); [|assumption|assumption|assumption|assumption|assumption|apply RE; lia].
  assert (V : cast bt (pm1_dt st x) = x * 2 - 1).
  { destruct Hx as [->| ->].
    - pose proof (pm1_zero st bt Hs Hb) as Z. destruct bt as [b|b|p emax]; cbn [room] in L; [|lia|];
        (destruct Z as [[_ Z]|[Z _]]; [exact Z|contradiction]).
    - apply pm1_one; assumption. }
  assert (Q : -1 <= b2z (x + y =? 1) * (x * 2 - 1) <= 1) by (destruct Hx as [->| ->]; destruct (_ =? 1); cbn; lia).
  rewrite V. rewrite (RE (b2z (x + y =? 1) * (x * 2 - 1))) by lia. rewrite RE by lia.
  split; [reflexivity|]. cbn [fst skewedsync_step]. unfold zclamp. lia.
Qed.

(** Steps of the exact machine on (1, 0) and (0, 1). *)
Lemma sync_10 depth s : 0 <= s <= p2 depth - 1 ->
  skewedsync_step depth s (1, 0) = (Z.min (s + 1) (p2 depth - 1), (b2z (s =? p2 depth - 1), 0)).
Proof.
  intros H. unfold skewedsync_step. change (1 + 0 =? 1) with true. cbn [b2z]. f_equal; [unfold zclamp; lia|].
  f_equal. destruct (s =? p2 depth - 1) eqn:E; cbn [negb b2z]; lia.
Qed.
Lemma sync_01 depth s : 0 <= s <= p2 depth - 1 ->
  skewedsync_step depth s (0, 1) = (Z.max (s - 1) 0, (b2z (negb (s =? 0)), 1)).
Proof.
  intros H. unfold skewedsync_step. change (0 + 1 =? 1) with true. cbn [b2z]. f_equal; [unfold zclamp; lia|].
  f_equal. destruct (s =? 0) eqn:E; cbn [negb b2z]; lia.
Qed.
Lemma sync_fill depth k : Z.of_nat k <= p2 depth - 1 ->
  final (skewedsync_step depth) skewedsync_init (repeat (1, 0) k) = Z.of_nat k.
Proof.
  intros H. unfold skewedsync_init. rewrite (final_up _ _ 0 k (p2 depth - 1)); [lia| |lia].
  intros z Hz. rewrite sync_10 by lia. cbn [fst]. lia.
Qed.
Lemma sync_full depth : final (skewedsync_step depth) skewedsync_init (repeat (1, 0) (2 ^ depth)) = p2 depth - 1.
Proof.
  pose proof (p2_pos depth). pose proof (p2_nat depth). rewrite repeat_last by lia. rewrite final_app, sync_fill by lia.
  rewrite final_cons, final_nil, sync_10 by lia. cbn [fst]. lia.
Qed.

(** ** The wrapping counter: 2^depth unmatched ones, all saved, are lost. *)
Lemma sync_dt_wrap st b depth : In st torch_dtypes -> In (SInt b) torch_dtypes -> depth = (b - 1)%nat -> (depth <= 24)%nat ->
  final (sync_dt_step st (SInt b) depth) 0 (repeat (1, 0) (2 ^ depth)) = 0 /\
  outs (sync_dt_step st (SInt b) depth) 0 (repeat (1, 0) (2 ^ depth)) =
    repeat (0, 0) (2 ^ depth - 1) ++ [(1, 0)].
Proof.
  intros Hs Hb D L. pose proof (torch_wf _ Hb) as W. pose proof (p2_ge_1 depth) as P. pose proof (p2_nat depth) as N.
  assert (WA : wraps_at (SInt b) depth) by (cbn [wraps_at wf_dtype] in *; lia).
  assert (b0 : bit 0) by (left; reflexivity). assert (b1 : bit 1) by (right; reflexivity).
  assert (C1 : const_dt (SInt b) (p2 depth - 1) = p2 depth - 1).
  { unfold const_dt. rewrite f32_pred. replace (depth <=? 24)%nat with true by lia.
    apply (wraps_exact _ depth); [assumption|assumption|lia]. }
  assert (CM : cast (SInt b) (p2 depth - 1) = p2 depth - 1) by (apply (wraps_exact _ depth); [assumption|assumption|lia]).
  assert (ST : forall z, sync_dt_step st (SInt b) depth z (1, 0) =
       (zclamp 0 (p2 depth - 1) (cast (SInt b) (z + 1)), (b2z (z =? p2 depth - 1), 0))).
  { intros z. rewrite (sync_dt_next st _ depth z 1 0 (p2 depth - 1)) by assumption.
    rewrite pm1_one by assumption. change (1 + 0 =? 1) with true. cbn [b2z]. change (1 * 1) with 1. rewrite cast_1 by assumption.
    f_equal. f_equal. destruct (z =? p2 depth - 1); cbn [negb b2z]; lia. }
  assert (UP : forall k, Z.of_nat k <= p2 depth - 1 -> final (sync_dt_step st (SInt b) depth) 0 (repeat (1, 0) k) = Z.of_nat k).
  { intros k Hk. rewrite (final_up _ _ 0 k (p2 depth - 1)); [lia| |lia]. intros z Hz. rewrite ST. cbn [fst].
    rewrite (wraps_exact _ depth) by (assumption || lia). unfold zclamp. lia. }
  assert (OUT : forall k, Z.of_nat k <= p2 depth - 1 -> outs (sync_dt_step st (SInt b) depth) 0 (repeat (1, 0) k) = repeat (0, 0) k).
  { induction k as [|k IH]; intros Hk; [reflexivity|]. rewrite (repeat_last (1, 0)), (repeat_last (0, 0)) by lia.
    replace (S k - 1)%nat with k by lia. rewrite outs_app, outs_cons, outs_nil, UP, IH by lia. rewrite ST. cbn [snd].
    replace (Z.of_nat k =? p2 depth - 1) with false by lia. reflexivity. }
  rewrite repeat_last by lia. rewrite final_app, outs_app, UP, OUT by lia.
  rewrite final_cons, final_nil, outs_cons, outs_nil, ST. cbn [fst snd].
  replace (Z.of_nat (2 ^ depth - 1) + 1) with (p2 depth) by lia.
  replace (Z.of_nat (2 ^ depth - 1) =? p2 depth - 1) with true by lia. cbn [b2z].
  split; [|reflexivity]. pose proof (wraps_top _ _ W WA). unfold zclamp. lia.
Qed.

(** A bound that is never met: the ones of (1, 0) are swallowed for ever. *)
Lemma sync_dt_swallow st bt depth k : In st torch_dtypes -> In bt torch_dtypes ->
  match bt with
  | SInt b => (24 < depth /\ depth <= b - 2)%nat /\ Z.of_nat k <= p2 depth
  | UInt _ => False
  | Flt p _ => (p < depth)%nat \/ ((24 < depth)%nat /\ Z.of_nat k <= p2 depth)
  end ->
  outs (sync_dt_step st bt depth) 0 (repeat (1, 0) k) = repeat (0, 0) k.
Proof.
  intros Hs Hb H. pose proof (torch_wf _ Hb) as W. pose proof (p2_ge_1 depth) as P.
  assert (b0 : bit 0) by (left; reflexivity). assert (b1 : bit 1) by (right; reflexivity).
  assert (C1 : const_dt bt (p2 depth - 1) = p2 depth).
  { unfold const_dt. rewrite f32_pred. destruct bt as [b|b|p emax]; cbn [wf_dtype] in W.
    - replace (depth <=? 24)%nat with false by lia. apply sint_exact; [lia|].
      pose proof (p2_lt depth (b - 1) ltac:(lia)). lia.
    - contradiction.
    - cbn [cast]. destruct (depth <=? 24)%nat eqn:E; [apply fl_pow_pred|apply fl_pow]; lia. }
  assert (CM : cast bt (p2 depth) = p2 depth).
  { destruct bt as [b|b|p emax]; cbn [wf_dtype] in W.
    - apply sint_exact; [lia|]. pose proof (p2_lt depth (b - 1) ltac:(lia)). lia.
    - contradiction.
    - apply fl_pow. lia. }
  assert (ST : forall z, sync_dt_step st bt depth z (1, 0) =
       (zclamp 0 (p2 depth) (cast bt (z + 1)), (b2z (z =? p2 depth), 0))).
  { intros z. rewrite (sync_dt_next st _ depth z 1 0 (p2 depth)) by assumption.
    rewrite pm1_one by assumption. change (1 + 0 =? 1) with true. cbn [b2z]. change (1 * 1) with 1. rewrite cast_1 by assumption.
    f_equal. f_equal. destruct (z =? p2 depth); cbn [negb b2z]; lia. }
  (* the values the counter takes *)
  assert (G : forall lim, 0 <= lim < p2 depth -> (forall z, 0 <= z < lim -> cast bt (z + 1) = z + 1) ->
     (cast bt (lim + 1) = lim \/ Z.of_nat k <= lim + 1) ->
     outs (sync_dt_step st bt depth) 0 (repeat (1, 0) k) = repeat (0, 0) k).
  { intros lim Hl CE TOP.
    assert (GG : forall j s, 0 <= s <= lim -> (cast bt (lim + 1) = lim \/ s + Z.of_nat j <= lim + 1) ->
               outs (sync_dt_step st bt depth) s (repeat (1, 0) j) = repeat (0, 0) j).
    { induction j as [|j IH]; intros s Hs' T; [reflexivity|]. cbn [repeat]. rewrite outs_cons, ST. cbn [fst snd].
      replace (s =? p2 depth) with false by lia. cbn [b2z]. f_equal.
      destruct (Z.eq_dec s lim) as [->|Ne].
      - destruct T as [T|T].
        + rewrite T. apply IH; [unfold zclamp; lia|left; assumption].
        + assert (j = 0%nat) by lia. subst j. reflexivity.
      - rewrite CE by lia. apply IH; [unfold zclamp; lia|]. destruct T as [T|T]; [left; assumption|right; unfold zclamp; lia]. }
    apply GG; [lia|]. destruct TOP; [left; assumption|right; lia]. }
  destruct bt as [b|b|p emax]; cbn [wf_dtype] in W.
  - destruct H as [H1 H2]. apply (G (p2 depth - 1)); [lia| |right; lia].
    intros z Hz. apply sint_exact; [lia|]. pose proof (p2_lt depth (b - 1) ltac:(lia)). lia.
  - contradiction.
  - destruct (le_lt_dec depth p) as [A|A].
    + destruct H as [H|[H1 H2]]; [lia|]. apply (G (p2 depth - 1)); [lia| |right; lia].
      intros z Hz. apply fl_small; [lia|]. pose proof (p2_le depth p A). lia.
    + apply (G (p2 p)).
      * pose proof (p2_pos p). pose proof (p2_lt p depth A). lia.
      * intros z Hz. apply fl_small; lia.
      * left. apply fl_pow_succ; lia.
Qed.

(** What the counter holds after one (0, 1) when -1 is lost. *)
Lemma sync_dt_lost st bt depth z : In st torch_dtypes -> In bt torch_dtypes -> (1 <= depth)%nat ->
  dt_range bt (cast t_float32 (p2 depth - 1)) ->
  match bt with UInt _ => z = 0 | Flt _ _ => minus_255 st bt | SInt b => minus_255 st bt /\ (depth <= b - 2)%nat end ->
  0 <= z <= const_dt bt (p2 depth - 1) ->
  let r := sync_dt_step st bt depth z (0, 1) in
  snd r = (b2z (negb (z =? 0)), 1) /\ 1 <= fst r <= const_dt bt (p2 depth - 1).
Proof.
  intros Hs Hb D R H Hz. pose proof (torch_wf _ Hb) as W. pose proof (p2_lt 0 depth ltac:(lia)) as P. rewrite p2_0 in P.
  assert (b0 : bit 0) by (left; reflexivity). assert (b1 : bit 1) by (right; reflexivity).
  cbv zeta. set (M := const_dt bt (p2 depth - 1)) in *.
  assert (MB : 1 <= M <= p2 depth).
  { unfold M. rewrite const_max by assumption. match goal with |- context [if ?c then _ else _] => destruct c end; lia. }
  rewrite (sync_dt_next st _ depth z 0 1 M); [|assumption|assumption|assumption|assumption|reflexivity|apply const_idem; assumption].
  change (0 + 1 =? 1) with true. cbn [b2z fst snd]. rewrite !Z.mul_1_l.
  rewrite (cast_exact bt (cast bt (pm1_dt st 0))) by (try apply cast_holds; assumption).
  split; [f_equal; destruct (z =? 0); cbn [negb b2z]; lia|]. clearbody M.
  destruct bt as [b|b|p emax]; cbn [wf_dtype] in W.
  - destruct H as [(_ & V & B) L]. rewrite V.
    pose proof (p2_le depth (b - 2) L). pose proof (p2_sub1 (b - 1) ltac:(lia)) as X.
    replace (b - 1 - 1)%nat with (b - 2)%nat in X by lia.
    pose proof (p2_le 14 (b - 2) ltac:(lia)) as Y. change (p2 14) with 16384 in Y.
    rewrite sint_exact by lia. unfold zclamp. lia.
  - subst z. pose proof (pm1_zero st _ Hs Hb) as Z. cbv beta iota in Z. rewrite Z, uint_minus.
    pose proof (dt_range_uint b depth W R) as L. pose proof (p2_le depth b L).
    assert (Q : cast (UInt b) (0 - 1) = p2 b - 1).
    { cbn [cast]. symmetry. apply Z.mod_unique with (-1); [lia|ring]. }
    rewrite Q. unfold zclamp. lia.
  - destruct H as (_ & V & B). rewrite V. pose proof (fl_ge p 0 (z + 255) ltac:(lia)) as G. rewrite p2_0 in G.
    cbn [cast]. specialize (G ltac:(lia)). unfold zclamp. lia.
Qed.

(** uint8 streams with a wider counter: once a (0, 1) has been seen, every (0, 1) emits a one out of nothing. *)
Lemma sync_dt_surplus st bt depth k : In st torch_dtypes -> In bt torch_dtypes -> (1 <= depth)%nat ->
  dt_range bt (cast t_float32 (p2 depth - 1)) ->
  match bt with UInt _ => False | Flt _ _ => minus_255 st bt | SInt b => minus_255 st bt /\ (depth <= b - 2)%nat end ->
  outs (sync_dt_step st bt depth) 0 (repeat (0, 1) (S k)) = (0, 1) :: repeat (1, 1) k.
Proof.
  intros Hs Hb D R H. pose proof (p2_lt 0 depth ltac:(lia)) as P. rewrite p2_0 in P. pose proof (torch_wf _ Hb) as W.
  assert (MB : 1 <= const_dt bt (p2 depth - 1)).
  { rewrite const_max by assumption. match goal with |- context [if ?c then _ else _] => destruct c end; lia. }
  assert (L : forall z, 0 <= z <= const_dt bt (p2 depth - 1) -> let r := sync_dt_step st bt depth z (0, 1) in
    snd r = (b2z (negb (z =? 0)), 1) /\ 1 <= fst r <= const_dt bt (p2 depth - 1)).
  { intros z Hz. apply sync_dt_lost; try assumption. destruct bt; [assumption|contradiction|assumption]. }
  assert (G : forall j z, 1 <= z <= const_dt bt (p2 depth - 1) ->
            outs (sync_dt_step st bt depth) z (repeat (0, 1) j) = repeat (1, 1) j).
  { induction j as [|j IH]; intros z Hz; [reflexivity|]. cbn [repeat]. rewrite outs_cons.
    destruct (L z ltac:(lia)) as [E1 E2]. rewrite E1, IH by assumption.
    replace (z =? 0) with false by lia. reflexivity. }
  cbn [repeat]. rewrite outs_cons. destruct (L 0 ltac:(lia)) as [E1 E2]. rewrite E1, G by assumption. reflexivity.
Qed.

Lemma sync_dt_iff st bt depth : In st torch_dtypes -> In bt torch_dtypes -> (1 <= depth)%nat ->
  dt_range bt (cast t_float32 (p2 depth - 1)) ->
  (forall h, Forall bit2 h -> outs (sync_dt_step st bt depth) 0 h = outs (skewedsync_step depth) skewedsync_init h) <->
  (depth <= Nat.min (room bt) 24)%nat /\ keeps_minus st bt.
Proof.
  intros Hs Hb D R. split.
  2:{ intros [L K] h F. apply sync_dt_exact; assumption. }
  intros E. pose proof (torch_wf _ Hb) as W. pose proof (p2_lt 0 depth ltac:(lia)) as P. rewrite p2_0 in P.
  pose proof (p2_nat depth) as N.
  assert (b0 : bit 0) by (left; reflexivity). assert (b1 : bit 1) by (right; reflexivity).
  assert (MB : 1 <= const_dt bt (p2 depth - 1)).
  { rewrite const_max by assumption. match goal with |- context [if ?c then _ else _] => destruct c end; lia. }
  assert (F10 : forall k, Forall bit2 (repeat (1, 0) k)).
  { intros k. induction k; cbn [repeat]; constructor; [split; assumption|assumption]. }
  (* the exact machine emits after 2^depth pairs (1, 0) *)
  assert (X10 : snd (skewedsync_step depth (final (skewedsync_step depth) skewedsync_init (repeat (1, 0) (2 ^ depth - 1))) (1, 0)) = (1, 0)).
  { rewrite sync_fill, sync_10 by lia. cbn [snd]. replace (Z.of_nat (2 ^ depth - 1) =? p2 depth - 1) with true by lia. reflexivity. }
  assert (SW : outs (sync_dt_step st bt depth) 0 (repeat (1, 0) (2 ^ depth)) = repeat (0, 0) (2 ^ depth) -> False).
  { intros O. specialize (E _ (F10 (2 ^ depth)%nat)). rewrite O in E.
    rewrite (repeat_last (0, 0)), (repeat_last (1, 0)) in E by lia. rewrite outs_app, outs_cons, outs_nil, X10 in E.
    apply app_inj_tail in E. destruct E as [_ E]. discriminate E. }
  assert (LO : match bt with UInt _ => True | Flt _ _ => minus_255 st bt | SInt b => minus_255 st bt /\ (depth <= b - 2)%nat end -> False).
  { intros H.
    assert (F : Forall bit2 [(0, 1); (0, 1)]) by (repeat constructor).
    specialize (E _ F). rewrite !outs_cons, !outs_nil in E. unfold skewedsync_init in E.
    destruct (sync_dt_lost st bt depth 0 Hs Hb D R) as [E1 E2].
    { destruct bt; [assumption|reflexivity|assumption]. } { lia. }
    rewrite E1 in E. set (z := fst (sync_dt_step st bt depth 0 (0, 1))) in *. clearbody z.
    assert (O : snd (sync_dt_step st bt depth z (0, 1)) = (1, 1)).
    { rewrite (sync_dt_next st _ depth z 0 1 (const_dt bt (p2 depth - 1)));
        [|assumption|assumption|assumption|assumption|reflexivity|apply const_idem; assumption].
      change (0 + 1 =? 1) with true. cbn [b2z snd]. replace (z =? 0) with false by lia. cbn [negb b2z]. f_equal. lia. }
    rewrite O in E. rewrite (sync_01 depth 0) in E by lia. cbn [fst snd] in E.
    rewrite sync_01 in E by lia. cbn in E. discriminate E. }
  destruct bt as [b|b|p emax].
  - pose proof (pm1_zero st _ Hs Hb) as Z. cbv beta iota in Z. pose proof (dt_range_int b depth W R) as [L1 L2]. cbn [wf_dtype] in W.
    destruct (le_lt_dec depth (b - 2)) as [A|A].
    + destruct Z as [[K _]|[_ M]]; [|exfalso; apply LO; split; assumption]. split; [|assumption]. cbn [room].
      destruct (le_lt_dec depth 24) as [B|B]; [lia|exfalso]. apply SW. apply sync_dt_swallow; [assumption|assumption|lia].
    + exfalso. assert (A1 : depth = (b - 1)%nat) by lia. assert (A2 : (depth <= 24)%nat) by lia.
      destruct (sync_dt_wrap st b depth Hs Hb A1 A2) as [T _].
      assert (F : Forall bit2 (repeat (1, 0) (2 ^ depth) ++ [(0, 1)])).
      { apply Forall_app. split; [apply F10|]. repeat constructor; assumption. }
      specialize (E _ F). apply outs_last in E. rewrite T, sync_full in E. rewrite sync_01 in E by lia. cbn [snd] in E.
      replace (p2 depth - 1 =? 0) with false in E by lia. cbn [negb b2z] in E.
      rewrite (sync_dt_next st _ depth 0 0 1 (const_dt (SInt b) (p2 depth - 1))) in E;
        [|assumption|exact W|assumption|assumption|reflexivity|apply const_idem; exact W].
      cbn [snd] in E. apply (f_equal fst) in E. cbn [fst] in E. change (0 =? 0) with true in E. cbn [negb b2z] in E. lia.
  - exfalso. apply LO. trivial.
  - pose proof (pm1_zero st _ Hs Hb) as Z. cbv beta iota in Z. cbn [wf_dtype] in W.
    destruct Z as [[K _]|[_ M]]; [|exfalso; apply LO; assumption]. split; [|assumption]. cbn [room].
    destruct (le_lt_dec depth p) as [A|A].
    + destruct (le_lt_dec depth 24) as [B|B]; [lia|exfalso]. apply SW. apply sync_dt_swallow; [assumption|assumption|]. right. lia.
    + exfalso. apply SW. apply sync_dt_swallow; [assumption|assumption|]. left. assumption.
Qed.

(** ** Bi2Uni *)
Lemma bi2uni_next d acc x : bit x ->
  bi2uni_step d acc x = let a := zclamp (- p2 d) (p2 d) (acc + (x * 2 - 1)) in (a - b2z (a >=? 1), b2z (a >=? 1)).
Proof. reflexivity. Qed.

Lemma cast_b2z dt (c : bool) : wf_dtype dt -> cast dt (b2z c) = b2z c.
Proof. intros W. destruct c; [apply cast_1|apply cast_0]; assumption. Qed.

Lemma bi2uni_arg bt x : In bt torch_dtypes -> match bt with UInt _ => False | _ => True end -> bit x ->
  cast bt (cast bt (cast bt x * 2) - 1) = x * 2 - 1.
Proof.
  intros H U. cbn [torch_dtypes In] in H. intros [->| ->];
  (repeat (destruct H as [<-|H]; [first [contradiction|vm_compute; reflexivity]|]); contradiction).
Qed.

(** The effective size of the accumulator. *)
Lemma bi2uni_dt_same bt d2 xs : In bt torch_dtypes -> dt_range bt (p2 d2) -> dt_range bt (- p2 d2) -> bits xs ->
  outs (bi2uni_dt_step bt d2) 0 xs = outs (bi2uni_step (acc_bits bt d2)) bi2uni_init xs.
Proof.
  intros Hb R1 R2 F. pose proof (torch_wf _ Hb) as W. unfold bi2uni_init.
  set (n := acc_bits bt d2). pose proof (p2_ge_1 n) as P. pose proof (p2_ge_1 d2) as P2.
  assert (U : match bt with UInt _ => False | _ => True end).
  { destruct bt as [b|b|p emax]; [trivial| |trivial]. cbn [dt_range holds] in R2. lia. }
  assert (ND : p2 n <= p2 d2) by (unfold n, acc_bits; destruct bt; [lia|lia|apply p2_le; lia]).
  assert (CB : cast bt (p2 d2) = p2 d2 /\ cast bt (- p2 d2) = - p2 d2).
  { destruct bt as [b|b|p emax]; cbn [dt_range wf_dtype] in *.
    - split; apply cast_exact; assumption.
    - contradiction.
    - split; [apply fl_pow|apply fl_npow]; lia. }
  assert (CE : forall z, - p2 n <= z <= 2 -> cast bt z = z).
  { intros z Hz. unfold n, acc_bits in Hz. destruct bt as [b|b|p emax]; cbn [dt_range holds wf_dtype] in *.
    - rewrite p2_pow1 in * by lia. apply sint_exact; [lia|].
      pose proof (p2_le 2 (b - 1) ltac:(lia)) as X. change (p2 2) with 4 in X. lia.
    - contradiction.
    - pose proof (p2_le (Nat.min d2 p) p ltac:(lia)) as X. pose proof (p2_le 1 p ltac:(lia)) as Y. change (p2 1) with 2 in Y.
      apply fl_small; lia. }
  assert (DOWN : zclamp (- p2 d2) (p2 d2) (cast bt (- p2 n - 1)) = - p2 n).
  { unfold n, acc_bits in *. destruct bt as [b|b|p emax]; cbn [dt_range holds wf_dtype] in *.
    - rewrite p2_pow1 in * by lia. destruct (Z.eq_dec (p2 d2) (p2 (b - 1))); [lia|].
      rewrite sint_exact by lia. unfold zclamp. lia.
    - contradiction.
    - destruct (le_lt_dec d2 p) as [A|A].
      + rewrite Nat.min_l in * by lia. destruct (Nat.eq_dec d2 p) as [->|Ne].
        * cbn [cast]. rewrite fl_npow_pred by lia. unfold zclamp. lia.
        * cbn [cast]. pose proof (p2_lt d2 p ltac:(lia)). rewrite fl_small by lia. unfold zclamp. lia.
      + rewrite Nat.min_r in * by lia. cbn [cast]. rewrite fl_npow_pred by lia. unfold zclamp. lia. }
  apply (outs_same _ _ (fun s => - p2 n <= s <= 0) bit); [|lia|assumption].
  intros s x Hs Hx. rewrite bi2uni_next by assumption. unfold bi2uni_dt_step, clamp_dt. destruct CB as [-> ->].
  rewrite bi2uni_arg by assumption. cbv zeta.
  assert (A : zclamp (- p2 d2) (p2 d2) (cast bt (s + (x * 2 - 1))) = zclamp (- p2 n) (p2 n) (s + (x * 2 - 1))).
  { destruct Hx as [->| ->].
    - destruct (Z.eq_dec s (- p2 n)) as [->|Ne].
      + replace (- p2 n + (0 * 2 - 1)) with (- p2 n - 1) by lia. rewrite DOWN. unfold zclamp. lia.
      + rewrite CE by lia. unfold zclamp. lia.
    - rewrite CE by lia. unfold zclamp. lia. }
  rewrite A. set (a := zclamp (- p2 n) (p2 n) (s + (x * 2 - 1))).
  assert (Ha : - p2 n <= a <= 1) by (unfold a; destruct Hx as [->| ->]; unfold zclamp; lia).
  rewrite cast_b2z by assumption. rewrite CE by (destruct (a >=? 1) eqn:G; cbn [b2z]; lia).
  split; [reflexivity|]. cbn [fst]. destruct (a >=? 1) eqn:G; cbn [b2z]; lia.
Qed.

(** Two sizes give different outputs on enough zeros followed by as many ones. *)
Lemma bi2uni_run d k : Z.of_nat k <= p2 d ->
  final (bi2uni_step d) 0 (repeat 0 k ++ repeat 1 k) = 0 /\ snd (bi2uni_step d (final (bi2uni_step d) 0 (repeat 0 k ++ repeat 1 k)) 1) = 1.
Proof.
  intros H. pose proof (p2_ge_1 d) as P.
  assert (A : final (bi2uni_step d) 0 (repeat 0 k ++ repeat 1 k) = 0).
  { rewrite final_app, (final_down _ 0 0 k (- Z.of_nat k)).
    - rewrite (final_up _ 1 _ k 0); [lia| |lia]. intros z Hz. rewrite bi2uni_next by (right; reflexivity). cbv zeta. cbn [fst].
      replace (zclamp (- p2 d) (p2 d) (z + (1 * 2 - 1))) with (z + 1) by (unfold zclamp; lia).
      replace (z + 1 >=? 1) with false by lia. cbn [b2z]. lia.
    - intros z Hz. rewrite bi2uni_next by (left; reflexivity). cbv zeta. cbn [fst].
      replace (zclamp (- p2 d) (p2 d) (z + (0 * 2 - 1))) with (z - 1) by (unfold zclamp; lia).
      replace (z - 1 >=? 1) with false by lia. cbn [b2z]. lia.
    - lia. }
  split; [exact A|]. rewrite A. rewrite bi2uni_next by (right; reflexivity). cbv zeta. cbn [snd].
  replace (zclamp (- p2 d) (p2 d) (0 + (1 * 2 - 1))) with 1 by (unfold zclamp; lia). reflexivity.
Qed.
Lemma bi2uni_differ d e : (d < e)%nat ->
  let xs := repeat 0 (2 ^ d + 1) ++ repeat 1 (2 ^ d + 1) in
  outs (bi2uni_step d) 0 xs <> outs (bi2uni_step e) 0 xs.
Proof.
  intros H. cbv zeta. pose proof (p2_ge_1 d) as P. pose proof (p2_nat d) as N. pose proof (p2_lt d e H) as PE. intros E.
  replace (2 ^ d + 1)%nat with (S (2 ^ d)) in E by lia. cbn [repeat] in E. 
  assert (Z : 0 :: repeat 0 (2 ^ d) = repeat 0 (2 ^ d) ++ [0]) by (change (0 :: repeat 0 (2 ^ d)) with (repeat 0 (S (2 ^ d))); rewrite repeat_last by lia; f_equal; f_equal; lia).
  assert (O : 1 :: repeat 1 (2 ^ d) = repeat 1 (2 ^ d) ++ [1]) by (change (1 :: repeat 1 (2 ^ d)) with (repeat 1 (S (2 ^ d))); rewrite repeat_last by lia; f_equal; f_equal; lia).
  rewrite O, app_assoc in E. apply outs_last in E.
  assert (X : final (bi2uni_step d) 0 (0 :: repeat 0 (2 ^ d)) = - p2 d).
  { rewrite Z, final_app, (final_down _ 0 0 (2 ^ d) (- p2 d)).
    - rewrite final_cons, final_nil, bi2uni_next by (left; reflexivity). cbv zeta. cbn [fst].
      replace (zclamp (- p2 d) (p2 d) (0 - Z.of_nat (2 ^ d) + (0 * 2 - 1))) with (- p2 d) by (unfold zclamp; lia).
      replace (- p2 d >=? 1) with false by lia. cbn [b2z]. lia.
    - intros z Hz. rewrite bi2uni_next by (left; reflexivity). cbv zeta. cbn [fst].
      replace (zclamp (- p2 d) (p2 d) (z + (0 * 2 - 1))) with (z - 1) by (unfold zclamp; lia).
      replace (z - 1 >=? 1) with false by lia. cbn [b2z]. lia.
    - lia. }
  assert (Y : final (bi2uni_step e) 0 (0 :: repeat 0 (2 ^ d)) = - p2 d - 1).
  { change (0 :: repeat 0 (2 ^ d)) with (repeat 0 (S (2 ^ d))). rewrite (final_down _ 0 0 _ (- p2 d - 1)); [lia| |lia].
    intros z Hz. rewrite bi2uni_next by (left; reflexivity). cbv zeta. cbn [fst].
    replace (zclamp (- p2 e) (p2 e) (z + (0 * 2 - 1))) with (z - 1) by (unfold zclamp; lia).
    replace (z - 1 >=? 1) with false by lia. cbn [b2z]. lia. }
  rewrite !(final_app _ _ (0 :: repeat 0 (2 ^ d))), X, Y in E.
  assert (UP : forall n s, - p2 n - 1 <= s -> s + Z.of_nat (2 ^ d) <= 0 -> 1 <= p2 n -> final (bi2uni_step n) s (repeat 1 (2 ^ d)) = s + Z.of_nat (2 ^ d)).
  { intros n s H1 H2 H3. apply (final_up _ 1 s _ 0); [|lia]. intros z Hz. rewrite bi2uni_next by (right; reflexivity). cbv zeta. cbn [fst].
    replace (zclamp (- p2 n) (p2 n) (z + (1 * 2 - 1))) with (z + 1) by (unfold zclamp; lia).
    replace (z + 1 >=? 1) with false by lia. cbn [b2z]. lia. }
  rewrite !UP in E by lia. rewrite !bi2uni_next in E by (right; reflexivity). cbv zeta in E. cbn [snd] in E.
  replace (zclamp (- p2 d) (p2 d) (- p2 d + Z.of_nat (2 ^ d) + (1 * 2 - 1))) with 1 in E by (unfold zclamp; lia).
  replace (zclamp (- p2 e) (p2 e) (- p2 d - 1 + Z.of_nat (2 ^ d) + (1 * 2 - 1))) with 0 in E by (unfold zclamp; lia).
  discriminate E.
Qed.
Lemma bi2uni_dt_iff bt d2 : In bt torch_dtypes -> dt_range bt (p2 d2) -> dt_range bt (- p2 d2) ->
  (forall xs, bits xs -> outs (bi2uni_dt_step bt d2) 0 xs = outs (bi2uni_step d2) bi2uni_init xs) <->
  match bt with Flt p _ => (d2 <= p)%nat | _ => True end.
Proof.
  intros Hb R1 R2. split.
  - intros E. destruct bt as [b|b|p emax]; [trivial|trivial|]. destruct (le_lt_dec d2 p) as [L|G]; [assumption|exfalso].
    apply (bi2uni_differ p d2 G). cbv zeta.
    set (xs := repeat 0 (2 ^ p + 1) ++ repeat 1 (2 ^ p + 1)).
    assert (F : bits xs). { apply Forall_app. split; apply bits_repeat; [left|right]; reflexivity. }
    pose proof (bi2uni_dt_same _ d2 xs Hb R1 R2 F) as S. rewrite E in S by assumption. unfold bi2uni_init in S.
    cbn [acc_bits] in S. rewrite Nat.min_r in S by lia. symmetry. exact S.
  - intros H xs F. rewrite bi2uni_dt_same by assumption. destruct bt as [b|b|p emax]; [reflexivity|reflexivity|].
    cbn [acc_bits]. rewrite Nat.min_l by assumption. reflexivity.
Qed.

(** ** Uni2Bi *)
Lemma uni2bi_dt_exact bt d2 xs : In bt torch_dtypes -> dt_range (wide_dt bt) (p2 d2) -> bits xs ->
  outs (uni2bi_dt_step bt d2) 0 xs = outs (uni2bi_step d2) uni2bi_init xs.
Proof.
  intros Hb R F. pose proof (torch_wf _ Hb) as W. unfold uni2bi_init. pose proof (p2_ge_1 d2) as P.
  assert (WW : In (wide_dt bt) torch_dtypes) by (destruct bt; [cbn; tauto|cbn; tauto|assumption]).
  pose proof (torch_wf _ WW) as W2.
  assert (CB : cast (wide_dt bt) (p2 d2) = p2 d2 /\ cast (wide_dt bt) (- p2 d2) = - p2 d2).
  { destruct bt as [b|b|p emax]; cbn [dt_range wf_dtype wide_dt t_int64 holds] in *.
    - split; apply cast_exact; [assumption|exact R|assumption|].
      change (- p2 63 <= p2 d2 < p2 63) in R. change (- p2 63 <= - p2 d2 < p2 63). lia.
    - split; apply cast_exact; [assumption|exact R|assumption|].
      change (- p2 63 <= p2 d2 < p2 63) in R. change (- p2 63 <= - p2 d2 < p2 63). lia.
    - split; [apply fl_pow|apply fl_npow]; lia. }
  assert (CE : forall z, 0 <= z <= 3 -> cast (wide_dt bt) z = z).
  { intros z Hz. assert (Q : z = 0 \/ z = 1 \/ z = 2 \/ z = 3) by lia. clear - WW Q.
    set (dt := wide_dt bt) in *. clearbody dt. cbn [torch_dtypes In] in WW.
    destruct Q as [->|[->|[->| ->]]]; (repeat (destruct WW as [<-|WW]; [vm_compute; reflexivity|]); contradiction). }
  assert (SE : forall x, bit x -> sum_dt bt [cast bt x; cast bt 1] = x + 1).
  { intros x Hx. clear - Hb Hx. cbn [torch_dtypes In] in Hb.
    destruct Hx as [->| ->]; (repeat (destruct Hb as [<-|Hb]; [vm_compute; reflexivity|]); contradiction). }
  assert (OE : forall c, cast bt (cast bt (b2z c) * 2) = b2z c * 2).
  { intros c. clear - Hb. cbn [torch_dtypes In] in Hb.
    destruct c; (repeat (destruct Hb as [<-|Hb]; [vm_compute; reflexivity|]); contradiction). }
  apply (outs_same _ _ (fun s => 0 <= s <= 1) bit); [|lia|assumption].
  intros s x Hs Hx. unfold uni2bi_dt_step, uni2bi_step, clamp_dt. fold (wide_dt bt). destruct CB as [-> ->].
  rewrite SE, OE by assumption. rewrite cast_b2z by assumption. cbv zeta. cbn [zsum].
  rewrite (CE (s + (x + 1))) by (destruct Hx as [->| ->]; lia). replace (s + (x + 1)) with (s + (x + (1 + 0))) by lia.
  set (a := zclamp (- p2 d2) (p2 d2) (s + (x + (1 + 0)))).
  assert (Ha : 0 <= a <= 3) by (unfold a; destruct Hx as [->| ->]; unfold zclamp; lia).
  rewrite CE by (destruct (a >=? 2) eqn:G; cbn [b2z]; lia).
  split; [reflexivity|]. cbn [fst]. destruct (a >=? 2) eqn:G; cbn [b2z]; lia.
Qed.

Lemma stream_255 bt : In bt torch_dtypes -> match bt with UInt _ => False | _ => True end -> ~ keeps_minus t_uint8 bt -> minus_255 t_uint8 bt.
Proof.
  intros T U K. assert (TI : In t_uint8 torch_dtypes) by (cbn; tauto). pose proof (pm1_zero t_uint8 bt TI T) as P.
  destruct bt as [b|b|p emax]; [|contradiction|]; destruct P as [[A _]|[_ A]]; try exact A; contradiction.
Qed.
Lemma signabs_unsigned bt d xs : In bt torch_dtypes -> match bt with UInt _ => False | _ => True end -> ~ keeps_minus t_uint8 bt ->
  dt_range bt (cast t_float32 (p2 (S d) - 1)) -> (S d <= room bt)%nat -> bits xs ->
  outs (signabs_dt_step t_uint8 bt d) (signabs_dt_init bt d) xs = map (fun x => (0, x)) xs.
Proof.
  intros T U K R L F. assert (TI : In t_uint8 torch_dtypes) by (cbn; tauto).
  apply signabs_dt_255; try assumption. apply stream_255; assumption.
Qed.
Lemma sync_unsigned bt depth k : In bt torch_dtypes -> match bt with UInt _ => False | SInt b => (depth <= b - 2)%nat | _ => True end ->
  ~ keeps_minus t_uint8 bt -> (1 <= depth)%nat -> dt_range bt (cast t_float32 (p2 depth - 1)) ->
  outs (sync_dt_step t_uint8 bt depth) 0 (repeat (0, 1) (S k)) = (0, 1) :: repeat (1, 1) k.
Proof.
  intros T U K D R. assert (TI : In t_uint8 torch_dtypes) by (cbn; tauto).
  assert (M : minus_255 t_uint8 bt) by (apply stream_255; [assumption|destruct bt; tauto|assumption]).
  apply sync_dt_surplus; try assumption. destruct bt; tauto.
Qed.
Lemma bi2uni_dt_both bt d2 : In bt torch_dtypes -> dt_range bt (p2 d2) -> dt_range bt (- p2 d2) ->
  (forall xs, bits xs -> outs (bi2uni_dt_step bt d2) 0 xs = outs (bi2uni_step (acc_bits bt d2)) bi2uni_init xs) /\
  ((forall xs, bits xs -> outs (bi2uni_dt_step bt d2) 0 xs = outs (bi2uni_step d2) bi2uni_init xs) <->
   match bt with Flt p _ => (d2 <= p)%nat | _ => True end).
Proof. intros T R1 R2. split; [intros xs F; apply bi2uni_dt_same; assumption|apply bi2uni_dt_iff; assumption]. Qed.
