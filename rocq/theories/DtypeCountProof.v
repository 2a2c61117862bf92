(** Proofs about the counters of FSUSignAbs, SkewedSync, Bi2Uni and Uni2Bi in the element types of torch. *)
From Coq Require Import Lia ZifyBool.
Require Import Verif.BaseLemmas.
Require Export Verif.DtypeProof.
Open Scope Z_scope.

(** ** +-1 through the type of the stream *)
Lemma pm1_one it bt : In it torch_dtypes -> In bt torch_dtypes -> cast bt (pm1_dt it 1) = 1.
Proof.
  intros H1 H2. cbn [torch_dtypes In] in H1, H2.
  repeat (destruct H1 as [<-|H1]; [repeat (destruct H2 as [<-|H2]; [vm_compute; reflexivity|]); contradiction|]).
  contradiction.
Qed.
Definition minus_255 (it bt : dtype) : Prop :=
  it = UInt 8 /\ cast bt (pm1_dt it 0) = 255 /\ match bt with SInt b => (16 <= b)%nat | UInt _ => False | Flt _ _ => True end.
Lemma pm1_zero it bt : In it torch_dtypes -> In bt torch_dtypes ->
  match bt with
  | UInt b => cast bt (pm1_dt it 0) = cast bt (-1)
  | _ => (keeps_minus it bt /\ cast bt (pm1_dt it 0) = -1) \/ (~ keeps_minus it bt /\ minus_255 it bt)
  end.
Proof.
  intros H1 H2. cbn [torch_dtypes In] in H1, H2. unfold minus_255.
  repeat (destruct H1 as [<-|H1];
    [repeat (destruct H2 as [<-|H2];
       [cbv beta iota delta [t_uint8 t_int8 t_int16 t_int32 t_int64 t_float16 t_bfloat16 t_float32 t_float64 keeps_minus];
        first [ left; split; [exact Logic.I || lia|vm_compute; reflexivity]
              | right; split; [lia|split; [reflexivity|split; [vm_compute; reflexivity|exact Logic.I || lia]]]
              | vm_compute; reflexivity ]|]);
     contradiction|]).
  contradiction.
Qed.

(** ** The upper bound 2^n - 1, through float32 *)
Lemma f32_pred n : cast t_float32 (p2 n - 1) = if (n <=? 24)%nat then p2 n - 1 else p2 n.
Proof.
  cbn [t_float32 cast]. destruct (n <=? 24)%nat eqn:E.
  - apply fl_small; [lia|]. pose proof (p2_le n 24 ltac:(lia)). pose proof (p2_pos n). lia.
  - apply fl_pow_pred; lia.
Qed.
Lemma const_max dt n : wf_dtype dt -> dt_range dt (cast t_float32 (p2 n - 1)) ->
  const_dt dt (p2 n - 1) =
    (if (n <=? 24)%nat && match dt with Flt p _ => (n <=? p)%nat | _ => true end then p2 n - 1 else p2 n).
Proof.
  intros W R. unfold const_dt. rewrite f32_pred in *. destruct dt as [b|b|p emax]; cbn [dt_range] in R.
  - rewrite andb_true_r. destruct (n <=? 24)%nat; apply cast_exact; assumption.
  - rewrite andb_true_r. destruct (n <=? 24)%nat; apply cast_exact; assumption.
  - cbn [wf_dtype] in W. cbn [cast]. destruct (n <=? 24)%nat; cbn [andb]; [|apply fl_pow; lia].
    destruct (n <=? p)%nat eqn:E; [|apply fl_pow_pred; lia].
    apply fl_small; [lia|]. pose proof (p2_le n p ltac:(lia)). pose proof (p2_pos n). lia.
Qed.
Lemma dt_range_int b n : (3 <= b)%nat -> dt_range (SInt b) (cast t_float32 (p2 n - 1)) ->
  (n <= b - 1)%nat /\ ((24 < n)%nat -> (n <= b - 2)%nat).
Proof.
  intros Hb R. rewrite f32_pred in R. cbn [dt_range holds] in R. rewrite p2_pow1 in R by lia.
  destruct (n <=? 24)%nat eqn:E.
  - split; [|lia]. destruct (le_lt_dec n (b - 1)); [assumption|]. pose proof (p2_lt (b - 1) n ltac:(lia)). lia.
  - assert (n < b - 1)%nat. { destruct (le_lt_dec (b - 1) n); [|assumption]. pose proof (p2_le (b - 1) n ltac:(lia)). lia. }
    lia.
Qed.
Lemma dt_range_uint b n : (2 <= b)%nat -> dt_range (UInt b) (cast t_float32 (p2 n - 1)) -> (n <= b)%nat.
Proof.
  intros Hb R. rewrite f32_pred in R. cbn [dt_range holds] in R. fold (p2 b) in R.
  destruct (le_lt_dec n b); [assumption|]. pose proof (p2_lt b n ltac:(lia)).
  destruct (n <=? 24)%nat; lia.
Qed.

(** ** FSUSignAbs *)
Lemma signabs_init_ok bt d : wf_dtype bt -> dt_range bt (cast t_float32 (p2 (S d) - 1)) -> const_dt bt (p2 d) = p2 d.
Proof.
  intros W R. apply const_pow. destruct bt as [b|b|p emax]; cbn [wf_dtype] in W.
  - pose proof (dt_range_int b (S d) W R). lia.
  - pose proof (dt_range_uint b (S d) W R). lia.
  - lia.
Qed.

(** One step, in terms of the upper bound M. *)
Lemma signabs_dt_next it bt d acc x M : wf_dtype bt -> const_dt bt (p2 d) = p2 d -> const_dt bt (p2 (S d) - 1) = M -> cast bt M = M ->
  signabs_dt_step it bt d acc x =
    let acc' := zclamp 0 M (cast bt (acc + cast bt (pm1_dt it x))) in
    (acc', (b2z (acc' <? p2 d), Z.lxor (b2z (acc' <? p2 d)) x)).
Proof.
  intros W H1 H2 H3. unfold signabs_dt_step. rewrite H1, H2. unfold clamp_dt. rewrite cast_0, H3 by assumption. reflexivity.
Qed.
Lemma const_idem bt z : wf_dtype bt -> cast bt (const_dt bt z) = const_dt bt z.
Proof. intros W. apply cast_exact; [assumption|]. apply cast_holds. assumption. Qed.

Lemma signabs_dt_exact it bt d xs : In it torch_dtypes -> In bt torch_dtypes ->
  (S d <= Nat.min (room bt) 24)%nat -> keeps_minus it bt -> bits xs ->
  outs (signabs_dt_step it bt d) (signabs_dt_init bt d) xs = outs (fsusignabs_step d) (fsusignabs_init d) xs.
Proof.
  intros Hi Hb L K F. pose proof (torch_wf bt Hb) as W. pose proof (p2_pos d) as P. pose proof (p2_S d) as PS.
  assert (RE : forall z, -1 <= z <= p2 (S d) -> cast bt z = z) by (intros z; apply room_exact; lia || assumption).
  assert (FE : forall z, 0 <= z <= p2 (S d) -> const_dt bt z = z).
  { intros z Hz. unfold const_dt. assert (Z32 : cast t_float32 z = z).
    { apply fl_small; [lia|]. pose proof (p2_le (S d) 24 ltac:(lia)). lia. }
    rewrite Z32. apply RE. lia. }
  change (signabs_dt_init bt d) with (const_dt bt (p2 d)). rewrite FE by lia. change (fsusignabs_init d) with (p2 d).
  apply (outs_same _ _ (fun s => 0 <= s <= p2 (S d) - 1) bit); [|lia|assumption].
  intros s x Hs Hx.
  rewrite (signabs_dt_next it bt d s x (p2 (S d) - 1)); [|assumption|apply FE; lia|apply FE; lia|apply RE; lia].
  assert (V : cast bt (pm1_dt it x) = x * 2 - 1).
  { destruct Hx as [->| ->].
    - pose proof (pm1_zero it bt Hi Hb) as Z. destruct bt as [b|b|p emax]; cbn [room] in L; [|lia|];
        (destruct Z as [[_ Z]|[Z _]]; [exact Z|contradiction]).
    - apply pm1_one; assumption. }
  cbv zeta. rewrite V. rewrite RE by (destruct Hx as [->| ->]; lia).
  split; [reflexivity|]. cbn [fst fsusignabs_step]. unfold zclamp. lia.
Qed.

Lemma signabs_one d s : 0 <= s -> fst (fsusignabs_step d s 1) = Z.min (s + 1) (p2 (S d) - 1).
Proof. intros H. cbn [fst fsusignabs_step]. unfold zclamp. lia. Qed.
Lemma signabs_zero d s : s <= p2 (S d) -> fst (fsusignabs_step d s 0) = Z.max (s - 1) 0.
Proof. intros H. cbn [fst fsusignabs_step]. pose proof (p2_ge_1 (S d)). unfold zclamp. lia. Qed.
Lemma signabs_sign d s x : fst (snd (fsusignabs_step d s x)) = b2z (fst (fsusignabs_step d s x) <? p2 d).
Proof. reflexivity. Qed.

(** The sign after a whole history, in both machines. *)
Lemma signabs_last it bt d xs x : bits (xs ++ [x]) ->
  (forall ys, bits ys -> outs (signabs_dt_step it bt d) (signabs_dt_init bt d) ys = outs (fsusignabs_step d) (fsusignabs_init d) ys) ->
  fst (snd (signabs_dt_step it bt d (final (signabs_dt_step it bt d) (signabs_dt_init bt d) xs) x)) =
  fst (snd (fsusignabs_step d (final (fsusignabs_step d) (fsusignabs_init d) xs) x)).
Proof. intros B E. specialize (E _ B). apply outs_last in E. rewrite E. reflexivity. Qed.

Lemma repeat_last {A} (x : A) k : (1 <= k)%nat -> repeat x k = repeat x (k - 1) ++ [x].
Proof. intros H. replace k with ((k - 1) + 1)%nat at 1 by lia. rewrite repeat_app. reflexivity. Qed.

(** The exact machine: 2^d - 1 ones fill it. *)
Lemma signabs_ones d k : Z.of_nat k <= p2 d - 1 -> final (fsusignabs_step d) (p2 d) (repeat 1 k) = p2 d + Z.of_nat k.
Proof.
  intros H. pose proof (p2_S d). pose proof (p2_pos d). apply (final_up _ _ _ _ (p2 (S d) - 1)); [|lia].
  intros z Hz. rewrite signabs_one by lia. lia.
Qed.
Lemma signabs_full d : final (fsusignabs_step d) (p2 d) (repeat 1 (2 ^ d)) = p2 (S d) - 1.
Proof.
  pose proof (p2_S d). pose proof (p2_pos d). pose proof (p2_nat d). rewrite repeat_last by lia.
  rewrite final_app, signabs_ones by lia. rewrite final_cons, final_nil, signabs_one by lia. lia.
Qed.
Lemma signabs_zeros d : final (fsusignabs_step d) (p2 d) (repeat 0 (2 ^ d)) = 0.
Proof.
  pose proof (p2_S d). pose proof (p2_pos d). pose proof (p2_nat d).
  rewrite (final_down _ _ _ _ 0); [lia| |lia]. intros z Hz. rewrite signabs_zero by lia. lia.
Qed.

(** The wrapping counter: after 2^d ones it is empty. *)
Lemma signabs_dt_wrap it b d : In it torch_dtypes -> In (SInt b) torch_dtypes -> S d = (b - 1)%nat -> (S d <= 24)%nat ->
  final (signabs_dt_step it (SInt b) d) (signabs_dt_init (SInt b) d) (repeat 1 (2 ^ d)) = 0.
Proof.
  intros Hi Hb D L. pose proof (torch_wf _ Hb) as W. pose proof (p2_S d) as PS. pose proof (p2_pos d) as P. pose proof (p2_nat d) as N.
  assert (WA : wraps_at (SInt b) (S d)) by (cbn [wraps_at wf_dtype] in *; lia).
  assert (CE : forall z, 0 <= z < p2 (S d) -> const_dt (SInt b) z = z).
  { intros z Hz. unfold const_dt. rewrite (cast_exact t_float32); [|exact f32_wf|].
    - apply (wraps_exact _ (S d)); assumption.
    - exists z, 0. split; [lia|]. pose proof (p2_le (S d) 24 L). fold (p2 24). split; [lia|]. cbn. lia. }
  change (signabs_dt_init (SInt b) d) with (const_dt (SInt b) (p2 d)). rewrite CE by lia.
  assert (ST : forall z, 0 <= z < p2 (S d) ->
     fst (signabs_dt_step it (SInt b) d z 1) = zclamp 0 (p2 (S d) - 1) (cast (SInt b) (z + 1))).
  { intros z Hz. rewrite (signabs_dt_next it _ d z 1 (p2 (S d) - 1)); [|assumption|apply CE; lia|apply CE; lia|].
    - cbv zeta. cbn [fst]. rewrite pm1_one by assumption. reflexivity.
    - apply (wraps_exact _ (S d)); [assumption|assumption|lia]. }
  rewrite repeat_last by lia. rewrite final_app. rewrite (final_up _ 1 (p2 d) (2 ^ d - 1) (p2 (S d) - 1)).
  - rewrite final_cons, final_nil, ST by lia. replace (p2 d + Z.of_nat (2 ^ d - 1) + 1) with (p2 (S d)) by lia.
    pose proof (wraps_top _ _ W WA). unfold zclamp. lia.
  - intros z Hz. rewrite ST by lia. rewrite (wraps_exact _ (S d)) by (assumption || lia). unfold zclamp. lia.
  - lia.
Qed.

(** The counter one value too large: from 25 on the bound 2^(d+1) - 1 is not a float32. *)
Lemma signabs_dt_tall it bt d : In it torch_dtypes -> In bt torch_dtypes -> keeps_minus it bt -> (25 <= S d)%nat -> (S d <= room bt)%nat ->
  final (signabs_dt_step it bt d) (signabs_dt_init bt d) (repeat 1 (2 ^ d) ++ repeat 0 (2 ^ d)) = p2 d.
Proof.
  intros Hi Hb K G L. pose proof (torch_wf _ Hb) as W. pose proof (p2_S d) as PS. pose proof (p2_pos d) as P. pose proof (p2_nat d) as N.
  assert (RE : forall z, -1 <= z <= p2 (S d) -> cast bt z = z) by (intros z; apply room_exact; lia || assumption).
  assert (C0 : const_dt bt (p2 d) = p2 d).
  { unfold const_dt. replace (cast t_float32 (p2 d)) with (p2 d) by (symmetry; apply fl_pow; lia). apply RE. lia. }
  assert (C1 : const_dt bt (p2 (S d) - 1) = p2 (S d)).
  { unfold const_dt. rewrite f32_pred. replace (S d <=? 24)%nat with false by lia. apply RE. lia. }
  change (signabs_dt_init bt d) with (const_dt bt (p2 d)). rewrite C0.
  assert (V0 : cast bt (pm1_dt it 0) = -1).
  { pose proof (pm1_zero it bt Hi Hb) as Z. destruct bt as [b|b|p emax]; cbn [room] in L; [|lia|];
        (destruct Z as [[_ Z]|[Z _]]; [exact Z|contradiction]). }
  assert (U : forall z, p2 d <= z < p2 (S d) -> fst (signabs_dt_step it bt d z 1) = z + 1).
  { intros z Hz. rewrite (signabs_dt_next it bt d z 1 (p2 (S d))); [|assumption|assumption|assumption|apply RE; lia].
    cbv zeta. cbn [fst]. rewrite pm1_one by assumption. rewrite RE by lia. unfold zclamp. lia. }
  assert (D : forall z, p2 d < z <= p2 (S d) -> fst (signabs_dt_step it bt d z 0) = z - 1).
  { intros z Hz. rewrite (signabs_dt_next it bt d z 0 (p2 (S d))); [|assumption|assumption|assumption|apply RE; lia].
    cbv zeta. cbn [fst]. rewrite V0. rewrite RE by lia. unfold zclamp. lia. }
  rewrite final_app, (final_up _ 1 (p2 d) _ (p2 (S d))) by (assumption || lia).
  rewrite (final_down _ 0 _ _ (p2 d)); [lia| |lia]. intros z Hz. apply D. lia.
Qed.

Lemma fl_ge p k z : (1 <= p)%nat -> p2 k <= z -> p2 k <= fl p z.
Proof.
  intros Hp H. assert (holds (Flt p 0) (p2 k)) as Y.
  { rewrite <- (fl_pow p k) by assumption. apply fl_holds. assumption. }
  pose proof (fl_nearest p 0 z (p2 k) Hp Y). lia.
Qed.

(** A wrong -1: every bit is taken for a positive one. *)
Lemma signabs_dt_255 it bt d xs : In it torch_dtypes -> In bt torch_dtypes ->
  dt_range bt (cast t_float32 (p2 (S d) - 1)) -> minus_255 it bt -> (S d <= room bt)%nat -> bits xs ->
  outs (signabs_dt_step it bt d) (signabs_dt_init bt d) xs = map (fun x => (0, x)) xs.
Proof.
  intros Hi Hb R (_ & V & B) L F. pose proof (torch_wf _ Hb) as W.
  pose proof (p2_S d) as PS. pose proof (p2_pos d) as P.
  pose proof (signabs_init_ok bt d W R) as C0. pose proof (const_max bt (S d) W R) as C1.
  assert (M : exists M, const_dt bt (p2 (S d) - 1) = M /\ cast bt M = M /\ p2 d <= M <= p2 (S d)).
  { exists (const_dt bt (p2 (S d) - 1)). split; [reflexivity|]. split; [apply const_idem; assumption|].
    rewrite C1. match goal with |- context [if ?c then _ else _] => destruct c end; lia. }
  destruct M as (M & HM & HMc & HMb).
  change (signabs_dt_init bt d) with (const_dt bt (p2 d)). rewrite C0.
  assert (ST : forall s x, bit x -> p2 d <= s <= M -> p2 d <= cast bt (s + cast bt (pm1_dt it x))).
  { intros s x Hx Hs.
    assert (Q : cast bt (pm1_dt it x) = 1 \/ cast bt (pm1_dt it x) = 255).
    { destruct Hx as [->| ->]; [right; assumption|left; apply pm1_one; assumption]. }
    destruct bt as [b|b|p emax]; cbn [wf_dtype room] in W, L; [|contradiction|].
    - pose proof (p2_le (S d) (b - 2) ltac:(lia)). pose proof (p2_sub1 (b - 1) ltac:(lia)) as X.
      replace (b - 1 - 1)%nat with (b - 2)%nat in X by lia.
      pose proof (p2_le 14 (b - 2) ltac:(lia)) as Y. change (p2 14) with 16384 in Y.
      rewrite sint_exact; lia.
    - cbn [cast]. apply fl_ge; [lia|]. cbn [cast] in Q. lia. }
  assert (ALL : forall ys s, bits ys -> p2 d <= s <= M ->
            outs (signabs_dt_step it bt d) s ys = map (fun x => (0, x)) ys).
  { induction ys as [|y ys IH]; intros s Fy Hs; [reflexivity|]. inversion Fy as [|? ? Hy Fy']; subst.
    rewrite outs_cons. rewrite (signabs_dt_next it bt d s y (const_dt bt (p2 (S d) - 1))) by (assumption || reflexivity).
    cbv zeta. cbn [fst snd map]. specialize (ST s y Hy Hs).
    set (c := cast bt (s + cast bt (pm1_dt it y))) in *. clearbody c.
    assert (Z : p2 d <= zclamp 0 (const_dt bt (p2 (S d) - 1)) c <= const_dt bt (p2 (S d) - 1)) by (unfold zclamp; lia).
    rewrite IH by assumption. replace (zclamp 0 (const_dt bt (p2 (S d) - 1)) c <? p2 d) with false by lia. reflexivity. }
  apply ALL; [assumption|lia].
Qed.

(** A float type at least two bits short: the sign is never set. *)
Lemma signabs_dt_deep it p emax d xs : In it torch_dtypes -> In (Flt p emax) torch_dtypes -> keeps_minus it (Flt p emax) ->
  (p < d)%nat -> bits xs ->
  outs (signabs_dt_step it (Flt p emax) d) (signabs_dt_init (Flt p emax) d) xs = map (fun x => (0, x)) xs.
Proof.
  intros Hi Hb K G F. pose proof (torch_wf _ Hb) as W. cbn [wf_dtype] in W.
  pose proof (p2_S d) as PS. pose proof (p2_pos d) as P.
  assert (C0 : const_dt (Flt p emax) (p2 d) = p2 d) by (apply const_pow; lia).
  assert (C1 : const_dt (Flt p emax) (p2 (S d) - 1) = p2 (S d)).
  { unfold const_dt. rewrite f32_pred. cbn [cast]. destruct (S d <=? 24)%nat; [apply fl_pow_pred|apply fl_pow]; lia. }
  change (signabs_dt_init (Flt p emax) d) with (const_dt (Flt p emax) (p2 d)). rewrite C0.
  assert (V0 : cast (Flt p emax) (pm1_dt it 0) = -1).
  { pose proof (pm1_zero it _ Hi Hb) as Z. destruct Z as [[_ Z]|[Z _]]; [exact Z|contradiction]. }
  induction F as [|x xs Hx F IH]; [reflexivity|]. rewrite outs_cons.
  rewrite (signabs_dt_next it (Flt p emax) d (p2 d) x (p2 (S d))); [|exact W|assumption|assumption|apply fl_pow; lia].
  cbv zeta. cbn [fst snd map].
  assert (V : cast (Flt p emax) (p2 d + cast (Flt p emax) (pm1_dt it x)) = p2 d).
  { destruct Hx as [->| ->].
    - rewrite V0. apply fl_pow_pred; lia.
    - rewrite pm1_one by assumption. apply fl_pow_succ; lia. }
  rewrite V. replace (zclamp 0 (p2 (S d)) (p2 d)) with (p2 d) by (unfold zclamp; lia). rewrite IH.
  replace (p2 d <? p2 d) with false by lia. reflexivity.
Qed.

Lemma signabs_dt_iff it bt d : In it torch_dtypes -> In bt torch_dtypes -> dt_range bt (cast t_float32 (p2 (S d) - 1)) ->
  (forall xs, bits xs -> outs (signabs_dt_step it bt d) (signabs_dt_init bt d) xs = outs (fsusignabs_step d) (fsusignabs_init d) xs) <->
  (S d <= Nat.min (room bt) 24)%nat /\ keeps_minus it bt.
Proof.
  intros Hi Hb R. split.
  2:{ intros [L K] xs F. apply signabs_dt_exact; assumption. }
  intros E. pose proof (torch_wf _ Hb) as W. pose proof (p2_S d) as PS. pose proof (p2_pos d) as P. pose proof (p2_nat d) as N.
  pose proof (signabs_init_ok bt d W R) as C0. pose proof (const_max bt (S d) W R) as C1.
  assert (b0 : bit 0) by (left; reflexivity). assert (b1 : bit 1) by (right; reflexivity).
  assert (X0 : outs (fsusignabs_step d) (fsusignabs_init d) [0] = [(1, 1)]).
  { rewrite outs_cons, outs_nil. change (fsusignabs_init d) with (p2 d). cbn [fsusignabs_step fst snd].
    replace (zclamp 0 (p2 (S d) - 1) (p2 d + (0 * 2 - 1)) <? p2 d) with true by (unfold zclamp; lia). reflexivity. }
  destruct bt as [b|b|p emax].
  - (* signed integers *)
    pose proof (pm1_zero it _ Hi Hb) as Z. cbv beta iota in Z. pose proof (dt_range_int b (S d) W R) as [L1 L2]. cbn [wf_dtype] in W.
    destruct (le_lt_dec (S d) (b - 2)) as [A|A].
    + destruct Z as [[K _]|[_ M]].
      * split; [|assumption]. cbn [room]. destruct (le_lt_dec (S d) 24) as [B|B]; [lia|exfalso].
        pose proof (signabs_dt_tall it (SInt b) d Hi Hb K ltac:(lia) A) as T.
        assert (F : bits (repeat 1 (2 ^ d) ++ repeat 0 (2 ^ d))).
        { apply Forall_app. split; apply bits_repeat; assumption. }
        rewrite (repeat_last 0 (2 ^ d)), app_assoc in T, F by lia.
        pose proof (signabs_last _ _ _ _ _ F E) as S. rewrite signabs_sign, final_snoc in *.
        change (fsusignabs_init d) with (p2 d) in S.
        assert (X : fst (snd (signabs_dt_step it (SInt b) d
                 (final (signabs_dt_step it (SInt b) d) (signabs_dt_init (SInt b) d) (repeat 1 (2 ^ d) ++ repeat 0 (2 ^ d - 1))) 0)) = 0).
        { unfold signabs_dt_step at 1 in T. unfold signabs_dt_step at 1. cbv zeta in T |- *. cbn [fst snd] in T |- *.
          rewrite T, C0. replace (p2 d <? p2 d) with false by lia. reflexivity. }
        rewrite X in S. rewrite final_app, signabs_full in S.
        rewrite (final_down _ 0 _ _ (p2 d - 1)) in S; [|intros z Hz; rewrite signabs_zero by lia; lia|lia].
        rewrite signabs_zero in S by lia.
        replace (Z.max (p2 (Datatypes.S d) - 1 - Z.of_nat (2 ^ d - 1) - 1) 0 <? p2 d) with true in S by lia. discriminate S.
      * exfalso. pose proof (signabs_dt_255 it (SInt b) d [0] Hi Hb R M A ltac:(repeat constructor)) as Y.
        rewrite E, X0 in Y by repeat constructor. discriminate Y.
    + exfalso. assert (A1 : S d = (b - 1)%nat) by lia. assert (A2 : (S d <= 24)%nat) by lia.
      pose proof (signabs_dt_wrap it b d Hi Hb A1 A2) as T.
      pose proof (bits_repeat 1 (2 ^ d) b1) as F. rewrite (repeat_last 1 (2 ^ d)) in T, F by lia.
      pose proof (signabs_last _ _ _ _ _ F E) as S. rewrite signabs_sign, final_snoc in *.
      assert (X : fst (snd (signabs_dt_step it (SInt b) d
                 (final (signabs_dt_step it (SInt b) d) (signabs_dt_init (SInt b) d) (repeat 1 (2 ^ d - 1))) 1)) = 1).
      { unfold signabs_dt_step at 1 in T. unfold signabs_dt_step at 1. cbv zeta in T |- *. cbn [fst snd] in T |- *.
          rewrite T, C0. replace (0 <? p2 d) with true by lia. reflexivity. }
      rewrite X in S. change (fsusignabs_init d) with (p2 d) in S. rewrite signabs_ones in S by lia.
      rewrite signabs_one in S by lia.
      replace (Z.min (p2 d + Z.of_nat (2 ^ d - 1) + 1) (p2 (Datatypes.S d) - 1) <? p2 d) with false in S by lia. discriminate S.
  - (* unsigned integers *)
    exfalso. pose proof (pm1_zero it _ Hi Hb) as Z. cbv beta iota in Z. pose proof (dt_range_uint b (S d) W R) as L1. cbn [wf_dtype] in W.
    assert (B8 : b = 8%nat).
    { cbn [torch_dtypes In] in Hb. repeat (destruct Hb as [Hb|Hb]; [inversion Hb; reflexivity|]). contradiction. }
    rewrite andb_true_r in C1. replace (S d <=? 24)%nat with true in C1 by lia.
    assert (BB : p2 (S d) <= p2 b) by (apply p2_le; assumption).
    assert (ST : forall z, 0 <= z < p2 (S d) ->
       signabs_dt_step it (UInt b) d z 0 = let c := zclamp 0 (p2 (S d) - 1) (cast (UInt b) (z - 1)) in (c, (b2z (c <? p2 d), Z.lxor (b2z (c <? p2 d)) 0))).
    { intros z Hz. rewrite (signabs_dt_next it _ d z 0 (p2 (S d) - 1)); [|exact W|assumption|assumption|].
      - rewrite Z, uint_minus. reflexivity.
      - apply uint_exact. lia. }
    assert (F : bits (repeat 0 (2 ^ d) ++ [0])).
    { apply Forall_app. split; [apply bits_repeat; assumption|repeat constructor]. }
    pose proof (signabs_last _ _ _ _ _ F E) as S.
    change (fsusignabs_init d) with (p2 d) in S. rewrite signabs_zeros in S. rewrite signabs_sign, signabs_zero in S by lia.
    change (signabs_dt_init (UInt b) d) with (const_dt (UInt b) (p2 d)) in S. rewrite C0 in S.
    rewrite (final_down _ 0 (p2 d) (2 ^ d) 0) in S; [| |lia].
    + replace (p2 d - Z.of_nat (2 ^ d)) with 0 in S by lia. rewrite ST in S by lia. cbv zeta in S. cbn [fst snd] in S.
      assert (Q : cast (UInt b) (0 - 1) = p2 b - 1).
      { cbn [cast]. symmetry. apply Z.mod_unique with (-1); [lia|ring]. }
      rewrite Q in S. replace (zclamp 0 (p2 (Datatypes.S d) - 1) (p2 b - 1) <? p2 d) with false in S by (unfold zclamp; lia).
      replace (Z.max (0 - 1) 0 <? p2 d) with true in S by lia. discriminate S.
    + intros z Hz. rewrite ST by lia. cbv zeta. cbn [fst]. rewrite uint_exact by lia. unfold zclamp. lia.
  - (* floats *)
    pose proof (pm1_zero it _ Hi Hb) as Z. cbv beta iota in Z. cbn [wf_dtype] in W.
    destruct (le_lt_dec (S d) p) as [A|A].
    + destruct Z as [[K _]|[_ M]].
      * split; [|assumption]. cbn [room]. destruct (le_lt_dec (S d) 24) as [B|B]; [lia|exfalso].
        pose proof (signabs_dt_tall it (Flt p emax) d Hi Hb K ltac:(lia) A) as T.
        assert (F : bits (repeat 1 (2 ^ d) ++ repeat 0 (2 ^ d))).
        { apply Forall_app. split; apply bits_repeat; assumption. }
        rewrite (repeat_last 0 (2 ^ d)), app_assoc in T, F by lia.
        pose proof (signabs_last _ _ _ _ _ F E) as S. rewrite signabs_sign, final_snoc in *.
        change (fsusignabs_init d) with (p2 d) in S.
        assert (X : fst (snd (signabs_dt_step it (Flt p emax) d
                 (final (signabs_dt_step it (Flt p emax) d) (signabs_dt_init (Flt p emax) d) (repeat 1 (2 ^ d) ++ repeat 0 (2 ^ d - 1))) 0)) = 0).
        { unfold signabs_dt_step at 1 in T. unfold signabs_dt_step at 1. cbv zeta in T |- *. cbn [fst snd] in T |- *.
          rewrite T, C0. replace (p2 d <? p2 d) with false by lia. reflexivity. }
        rewrite X in S. rewrite final_app, signabs_full in S.
        rewrite (final_down _ 0 _ _ (p2 d - 1)) in S; [|intros z Hz; rewrite signabs_zero by lia; lia|lia].
        rewrite signabs_zero in S by lia.
        replace (Z.max (p2 (Datatypes.S d) - 1 - Z.of_nat (2 ^ d - 1) - 1) 0 <? p2 d) with true in S by lia. discriminate S.
      * exfalso. pose proof (signabs_dt_255 it (Flt p emax) d [0] Hi Hb R M A ltac:(repeat constructor)) as Y.
        rewrite E, X0 in Y by repeat constructor. discriminate Y.
    + exfalso. replace ((S d <=? 24)%nat && (S d <=? p)%nat) with false in C1 by lia.
      assert (Q : forall x, (x = 1 \/ keeps_minus it (Flt p emax)) -> bit x -> cast (Flt p emax) (pm1_dt it x) = x * 2 - 1).
      { intros x HK Hx. destruct Hx as [->| ->]; [|apply pm1_one; assumption].
        destruct Z as [[_ Z]|[Z _]]; [exact Z|]. destruct HK as [HK|HK]; [discriminate|contradiction]. }
      assert (CM : cast (Flt p emax) (p2 (S d)) = p2 (S d)) by (apply fl_pow; lia).
      assert (NEXT : forall s x, signabs_dt_step it (Flt p emax) d s x =
        let acc' := zclamp 0 (p2 (S d)) (cast (Flt p emax) (s + cast (Flt p emax) (pm1_dt it x))) in
        (acc', (b2z (acc' <? p2 d), Z.lxor (b2z (acc' <? p2 d)) x))).
      { intros s x. apply signabs_dt_next; assumption. }
      destruct Z as [[K V0]|[_ (_ & V0 & _)]].
      * destruct (le_lt_dec d p) as [B|B].
        -- assert (D : d = p) by lia. subst d.
           assert (F : bits ([1] ++ [0])) by (cbn [app]; constructor; [right; reflexivity|repeat constructor]).
           pose proof (signabs_last _ _ _ _ _ F E) as S. change (fsusignabs_init p) with (p2 p) in S.
           change (signabs_dt_init (Flt p emax) p) with (const_dt (Flt p emax) (p2 p)) in S. rewrite C0 in S.
           rewrite !final_cons, !final_nil in S. rewrite signabs_one in S by lia.
           rewrite (NEXT (p2 p) 1) in S. cbv zeta in S. cbn [fst] in S. rewrite pm1_one in S by assumption.
           assert (T : cast (Flt p emax) (p2 p + 1) = p2 p) by (apply fl_pow_succ; lia). rewrite T in S.
           pose proof (p2_le 2 p W) as P4. change (p2 2) with 4 in P4.
           replace (zclamp 0 (p2 (Datatypes.S p)) (p2 p)) with (p2 p) in S by (unfold zclamp; lia).
           rewrite NEXT in S. cbv zeta in S. cbn [fst snd] in S. rewrite V0 in S.
           assert (T2 : cast (Flt p emax) (p2 p + -1) = p2 p - 1).
           { replace (p2 p + -1) with (p2 p - 1) by lia. apply fl_small; lia. }
           rewrite T2 in S. replace (zclamp 0 (p2 (Datatypes.S p)) (p2 p - 1) <? p2 p) with true in S by (unfold zclamp; lia).
           rewrite signabs_sign, signabs_zero in S by lia.
           replace (Z.max (Z.min (p2 p + 1) (p2 (Datatypes.S p) - 1) - 1) 0 <? p2 p) with false in S by lia. discriminate S.
        -- pose proof (signabs_dt_deep it p emax d [0] Hi Hb K B ltac:(repeat constructor)) as Y.
           rewrite E, X0 in Y by repeat constructor. discriminate Y.
      * pose proof (signabs_last it (Flt p emax) d [] 0 ltac:(repeat constructor) E) as S. rewrite !final_nil in S.
        change (fsusignabs_init d) with (p2 d) in S. rewrite signabs_sign, signabs_zero in S by lia.
        change (signabs_dt_init (Flt p emax) d) with (const_dt (Flt p emax) (p2 d)) in S. rewrite C0 in S.
        rewrite NEXT in S. cbv zeta in S. cbn [fst snd] in S. rewrite V0 in S.
        pose proof (fl_ge p d (p2 d + 255) ltac:(lia) ltac:(lia)) as G. cbn [cast] in S.
        replace (zclamp 0 (p2 (Datatypes.S d)) (fl p (p2 d + 255)) <? p2 d) with false in S by (unfold zclamp; lia).
        replace (Z.max (p2 d - 1) 0 <? p2 d) with true in S by lia. discriminate S.
Qed.
