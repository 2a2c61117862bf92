(** Proofs for C78. *)
From Coq Require Import Lqa.
Require Import Verif.BaseLemmas Verif.UtilsModel Verif.UtilsProof Verif.GenModel Verif.GenProof Verif.LinearModel Verif.LinearProof Verif.HubModel Verif.HubProof.
Require Import Verif.Float32Model Verif.Float32Proof Verif.F32LayerModel.
Open Scope Z_scope.

Lemma qpow2_opp n : (qpow2 (- n) == / qpow2 n)%Q.
Proof. pose proof (qpow2_pos n). assert (E : (qpow2 (- n) * qpow2 n == 1)%Q) by (rewrite <- qpow2_add; replace (- n + n) with 0 by lia; reflexivity).
  setoid_replace (/ qpow2 n)%Q with (qpow2 (- n) * qpow2 n * / qpow2 n)%Q by (rewrite E; ring). field. lra. Qed.
Lemma inject_Z_injective a b : (inject_Z a == inject_Z b)%Q <-> a = b.
Proof. unfold Qeq. cbn. lia. Qed.

(** ** Summation in any order *)
Definition asum (l : list Q) : Q := qsum (map Qabs l).
Lemma asum_app a b : (asum (a ++ b) == asum a + asum b)%Q.
Proof. unfold asum. rewrite map_app, qsum_app. reflexivity. Qed.
Lemma asum_nonneg l : (0 <= asum l)%Q.
Proof. unfold asum. induction l as [|x l IH]; cbn [map qsum]; [lra|]. pose proof (Qabs_nonneg x). lra. Qed.
Lemma qsum_asum l : (Qabs (qsum l) <= asum l)%Q.
Proof.
  unfold asum. induction l as [|x l IH]; cbn [map qsum]; [vm_compute; discriminate|].
  eapply Qle_trans; [apply Qabs_triangle|]. lra.
Qed.
Lemma qsum_perm l l' : Permutation l l' -> (qsum l == qsum l')%Q.
Proof. induction 1; cbn [qsum]; [reflexivity|lra|lra|lra]. Qed.
Lemma asum_perm l l' : Permutation l l' -> (asum l == asum l')%Q.
Proof. intros H. unfold asum. apply qsum_perm, Permutation_map, H. Qed.
Lemma dyadic_qsum g l : Forall (dyadic g) l -> dyadic g (qsum l).
Proof.
  induction 1 as [|x l H _ IH]; cbn [qsum]; [exists 0; reflexivity|]. apply dyadic_plus; assumption.
Qed.

Lemma tree_exact g t : g <= 149 -> Forall (dyadic g) (leaves t) -> (asum (leaves t) <= qpow2 (24 - g))%Q -> (eval32 t == qsum (leaves t))%Q.
Proof.
  intros Hg. induction t as [|q|l IHl r IHr|l IHl q]; cbn [leaves eval32]; intros HD HS.
  - reflexivity.
  - cbn [qsum]. inversion HD as [|? ? D _]; subst. unfold asum in HS. cbn [map qsum] in HS.
    rewrite (f32_dyadic g q Hg D) by lra. ring.
  - apply Forall_app in HD. destruct HD as [Dl Dr]. rewrite asum_app in HS. pose proof (asum_nonneg (leaves l)). pose proof (asum_nonneg (leaves r)).
    rewrite qsum_app. rewrite (f32_comp _ (qsum (leaves l) + qsum (leaves r))) by (rewrite IHl, IHr by (assumption || lra); reflexivity).
    apply (f32_dyadic g); [exact Hg|apply dyadic_plus; apply dyadic_qsum; assumption|].
    pose proof (qsum_asum (leaves l)). pose proof (qsum_asum (leaves r)). eapply Qle_trans; [apply Qabs_triangle|]. lra.
  - apply Forall_app in HD. destruct HD as [Dl Dr]. rewrite asum_app in HS. pose proof (asum_nonneg (leaves l)). pose proof (asum_nonneg [q]).
    rewrite qsum_app. rewrite (f32_comp _ (qsum (leaves l) + qsum [q])) by (rewrite IHl by (assumption || lra); cbn [qsum]; ring).
    apply (f32_dyadic g); [exact Hg|apply dyadic_plus; apply dyadic_qsum; assumption|].
    pose proof (qsum_asum (leaves l)). pose proof (qsum_asum [q]). eapply Qle_trans; [apply Qabs_triangle|]. lra.
Qed.

Theorem sum32_exact : forall g t l, g <= 149 -> Permutation (leaves t) l -> Forall (dyadic g) l ->
  (qsum (map Qabs l) <= qpow2 (24 - g))%Q -> (eval32 t == qsum l)%Q.
Proof.
  intros g t l Hg P D S. rewrite <- (qsum_perm _ _ P). apply (tree_exact g); [exact Hg| |].
  - apply Forall_forall. intros x Hx. rewrite Forall_forall in D. apply D. eapply Permutation_in; eassumption.
  - rewrite (asum_perm _ _ P). exact S.
Qed.

(** Integer terms. *)
Lemma int_leaves ls zs : Forall2 (fun q z => (q == inject_Z z)%Q) ls zs -> Forall (dyadic 0) ls /\ (asum ls == inject_Z (zsum (map Z.abs zs)))%Q /\ (qsum ls == inject_Z (zsum zs))%Q.
Proof.
  induction 1 as [|q z ls zs E _ (D & A & S)]; [repeat split; constructor|]. split; [|split].
  - constructor; [|exact D]. exists z. rewrite E. change (Qpower 2 (- 0)) with 1%Q. ring.
  - unfold asum in *. cbn [map qsum zsum] in *. rewrite A, E, inject_abs, <- inject_Z_plus. reflexivity.
  - cbn [qsum zsum] in *. rewrite S, E, <- inject_Z_plus. reflexivity.
Qed.
Lemma int_tree t ls zs : Permutation (leaves t) ls -> Forall2 (fun q z => (q == inject_Z z)%Q) ls zs -> zsum (map Z.abs zs) <= 2 ^ 24 ->
  (eval32 t == inject_Z (zsum zs))%Q.
Proof.
  intros P F B. destruct (int_leaves ls zs F) as (D & A & S). rewrite <- S. apply (sum32_exact 0); [lia|exact P|exact D|].
  change (qsum (map Qabs ls)) with (asum ls). rewrite A. change (qpow2 (24 - 0)) with (inject_Z (2 ^ 24)). rewrite <- Zle_Qle. exact B.
Qed.

Theorem bits32_exact : forall x w t, bits x -> bits w -> zlen x <= 2 ^ 24 ->
  Permutation (leaves t) (map2 Qmult (map inject_Z x) (map inject_Z w)) -> (eval32 t == inject_Z (dot x w))%Q.
Proof.
  intros x w t Hx Hw L P. unfold dot. apply (int_tree t _ _ P).
  - clear. revert w. induction x as [|a x IH]; intros [|b w]; cbn; constructor; [rewrite inject_Z_mult; reflexivity|apply IH].
  - assert (G : zsum (map Z.abs (map2 Z.mul x w)) <= zlen x); [|lia]. clear L P t. revert w Hw.
    induction Hx as [|a x Ha _ IH]; intros w Hw; [reflexivity|]. destruct w as [|b w]; [unfold zlen; cbn; lia|]. inversion Hw as [|? ? Hb Hw']; subst. specialize (IH w Hw').
    unfold zlen in *. cbn [map2 map zsum length] in *. assert (Z.abs (a * b) <= 1) by (destruct Ha as [-> | ->], Hb as [-> | ->]; vm_compute; discriminate). lia.
Qed.

(** ** Shifting and rounding a float32 number *)
Lemma round_shift x r : single x -> qround (f32 (qshr x r)) = qround (qshr x r).
Proof.
  intros (n & k & Hn & Hk & E). set (y := qshr x r).
  assert (Ey : (y == inject_Z n * qpow2 (k - r))%Q).
  { unfold y, qshr. rewrite E. change (Qpower 2 k) with (qpow2 k). replace (k - r) with (k + - r) by lia. rewrite qpow2_add, qpow2_opp.
    pose proof (qpow2_pos r). field. lra. }
  destruct (Z_le_gt_dec (-149) (k - r)) as [L|G].
  - apply qround_comp, f32_fixed. exists n, (k - r). split; [exact Hn|]. split; [exact L|exact Ey].
  - assert (B : (Qabs y <= 1 # 4)%Q).
    { rewrite Ey, Qabs_Qmult, inject_abs, (Qabs_pos (qpow2 (k - r))) by (apply Qlt_le_weak, qpow2_pos).
      apply Qle_trans with (inject_Z (2 ^ 24) * qpow2 (k - r))%Q; [apply Qmult_le_compat_r; [apply inject_Z_le_iff, Hn|apply Qlt_le_weak, qpow2_pos]|].
      rewrite <- qpow2_Z, <- qpow2_add by lia. apply Qle_trans with (qpow2 (-2)); [apply qpow2_le; lia|vm_compute; discriminate]. }
    assert (B2 : (Qabs (f32 y) <= 1 # 4)%Q).
    { apply Qabs_Qle_condition in B. destruct B as [B1 B2]. apply Qabs_Qle_condition.
      assert (F1 : (f32 (1 # 4) == 1 # 4)%Q) by (vm_compute; reflexivity). assert (F2 : (f32 (- (1 # 4)) == - (1 # 4))%Q) by (vm_compute; reflexivity).
      split; [rewrite <- F2|rewrite <- F1]; apply f32_monotone; assumption. }
    assert (Z0 : forall z, (Qabs z <= 1 # 4)%Q -> qround z = 0).
    { intros z Hz. pose proof (qround_bounds z) as [R1 R2]. apply Qabs_Qle_condition in Hz. destruct Hz as [H1 H2].
      assert (-1 < qround z) by (rewrite Zlt_Qlt; change (inject_Z (-1)) with (-1)%Q; lra).
      assert (qround z < 1) by (rewrite Zlt_Qlt; change (inject_Z 1) with 1%Q; lra). lia. }
    rewrite !Z0; [reflexivity|exact B|exact B2].
Qed.

Lemma shift_out z ro : Z.abs z <= 2 ^ 24 -> ro <= 149 -> (f32 (qshr (inject_Z z) ro) == qshr (inject_Z z) ro)%Q.
Proof.
  intros Hz Hr. apply f32_fixed. exists z, (- ro). split; [exact Hz|]. split; [lia|]. change (Qpower 2 (- ro)) with (qpow2 (- ro)).
  unfold qshr. rewrite qpow2_opp. pose proof (qpow2_pos ro). field. lra.
Qed.
Lemma out32_exact t ro bias z : (eval32 t == inject_Z z)%Q -> Z.abs z <= 2 ^ 24 -> ro <= 149 ->
  (out32 t ro bias == match bias with None => qshr (inject_Z z) ro | Some b => f32 (qshr (inject_Z z) ro + b) end)%Q.
Proof.
  intros E Hz Hr. unfold out32. cbv zeta.
  assert (S : (f32 (qshr (eval32 t) ro) == qshr (inject_Z z) ro)%Q).
  { rewrite (f32_comp _ (qshr (inject_Z z) ro)); [apply shift_out; assumption|]. unfold qshr. rewrite E. reflexivity. }
  destruct bias as [b|]; [|exact S]. apply f32_comp. rewrite S. reflexivity.
Qed.
Lemma zsum_abs l : Z.abs (zsum l) <= zsum (map Z.abs l).
Proof. induction l as [|x l IH]; cbn [map zsum] in *; [lia|]. lia. Qed.

(** ** HUBLinear *)
Lemma qsign_abs x : Z.abs (qsign x) <= 1.
Proof. unfold qsign. destruct (Qcompare x 0); cbn; lia. Qed.
Lemma hub_terms c ri rw E : (forall row v, In row (hub_map c) -> In v row -> 0 <= v <= E) -> 0 <= E <= 2 ^ 24 ->
  forall x w, Forall single x -> Forall single w ->
  Forall2 (fun q z => (q == inject_Z z)%Q) (map2 (hub32_term c ri rw) x w) (map2 (hub_mul c ri rw) x w) /\
  zsum (map Z.abs (map2 (hub_mul c ri rw) x w)) <= zlen x * E.
Proof.
  intros HE HB. induction x as [|a x IH]; intros w Hx Hw; [split; [constructor|cbn; lia]|].
  inversion Hx as [|? ? Ha Hx']; subst. destruct w as [|b w]; [split; [cbn [map2]; constructor|unfold zlen; cbn [length map2 map zsum]; nia]|].
  inversion Hw as [|? ? Hb Hw']; subst. destruct (IH w Hx' Hw') as [F S]. cbn [map2]. set (T := map2 (hub_mul c ri rw) x w) in *. set (T32 := map2 (hub32_term c ri rw) x w) in *. clearbody T T32. unfold hub32_term, hub_mul, hub32_mag, hub_mag.
  rewrite !round_shift by assumption.
  set (i := zclamp 0 (hub_cycle c - 1) (Z.abs (qround (qshr a ri)))). set (j := zclamp 0 (hub_cycle c - 1) (Z.abs (qround (qshr b rw)))).
  assert (V : 0 <= nthZ (nth (Z.to_nat i) (hub_map c) []) j <= E).
  { unfold nthZ. destruct (nth_in_or_default (Z.to_nat i) (hub_map c) []) as [I|D]; [|rewrite D; destruct (Z.to_nat j); cbn; lia].
    destruct (nth_in_or_default (Z.to_nat j) (nth (Z.to_nat i) (hub_map c) []) 0) as [I2|D2]; [exact (HE _ _ I I2)|rewrite D2; lia]. }
  set (v := nthZ (nth (Z.to_nat i) (hub_map c) []) j) in *. pose proof (qsign_abs a) as Sa. pose proof (qsign_abs b) as Sb.
  split.
  - constructor; [|exact F]. rewrite (f32_int_comp _ (v * qsign b)) by (rewrite ?inject_Z_mult; try reflexivity; nia).
    rewrite <- inject_Z_mult. reflexivity.
  - cbn [map zsum]. unfold zlen in *. cbn [length]. assert (Z.abs (qsign a * (v * qsign b)) <= E); [|lia].
    assert (A : qsign a = -1 \/ qsign a = 0 \/ qsign a = 1) by lia. assert (B : qsign b = -1 \/ qsign b = 0 \/ qsign b = 1) by lia.
    clearbody v. destruct A as [-> | [-> | ->]], B as [-> | [-> | ->]]; lia.
Qed.

Theorem hub32_exact : forall c E ri rw ro x w bias t, (forall row v, In row (hub_map c) -> In v row -> 0 <= v <= E) ->
  Forall single x -> Forall single w -> 0 <= E -> zlen x * E <= 2 ^ 24 -> x <> [] -> ro <= 149 ->
  Permutation (leaves t) (map2 (hub32_term c ri rw) x w) ->
  exists o, hub_forward c ri rw ro [x] [w] None = [[o]] /\ (out32 t ro bias == match bias with None => o | Some b => f32 (o + b) end)%Q.
Proof.
  intros c E ri rw ro x w bias t HE Hx Hw E0 HL Hne Hr P.
  assert (1 <= zlen x) by (unfold zlen; destruct x; [contradiction|cbn [length]; lia]).
  destruct (hub_terms c ri rw E HE ltac:(nia) x w Hx Hw) as [F S].
  exists (qshr (inject_Z (zsum (map2 (hub_mul c ri rw) x w))) ro). split; [reflexivity|].
  apply out32_exact; [apply (int_tree t _ _ P F); lia| |exact Hr]. pose proof (zsum_abs (map2 (hub_mul c ri rw) x w)). lia.
Qed.

Lemma zsum_bits_le l : bits l -> 0 <= zsum l <= zlen l.
Proof. unfold zlen. induction 1 as [|x l Hx _ IH]; cbn [zsum length] in *; [lia|]. destruct Hx as [-> | ->]; lia. Qed.
Lemma hub_table_bound cm ctler ctlee : (length ctlee <= cm)%nat -> forall row v, In row (hub_table cm ctler ctlee) -> In v row -> 0 <= v <= Z.of_nat cm.
Proof.
  intros L row v Hr Hv. unfold hub_table in Hr. apply in_map_iff in Hr. destruct Hr as (n & <- & _). apply in_map_iff in Hv. destruct Hv as (u & <- & _).
  set (l := firstn (Z.to_nat n) (map (fun r => b2z (u >? r)) ctlee)).
  assert (B : bits l).
  { apply Forall_forall. intros z Hz. unfold l in Hz. assert (Hz' : In z (map (fun r => b2z (u >? r)) ctlee)).
    { rewrite <- (firstn_skipn (Z.to_nat n) (map (fun r => b2z (u >? r)) ctlee)). apply in_or_app. left. exact Hz. }
    apply in_map_iff in Hz'. destruct Hz' as (r & <- & _). destruct (u >? r); [right|left]; reflexivity. }
  pose proof (zsum_bits_le l B) as Z1. assert (zlen l <= Z.of_nat cm); [|lia]. unfold zlen, l. rewrite firstn_length, map_length. lia.
Qed.
Theorem hub_new_bound : forall exti extw widthi widthw rngi rngw cyc c, hub_new exti extw widthi widthw rngi rngw cyc = Ok c ->
  forall row v, In row (hub_map c) -> In v row -> 0 <= v <= 2 ^ (Z.max (Z.of_nat widthi) (Z.of_nat widthw) - 1).
Proof.
  intros exti extw wi ww rngi rngw cyc c H. unfold hub_new in H. destruct cyc as [cy|]; [|discriminate]. cbv zeta in H.
  match type of H with (if ?c then _ else _) = _ => destruct c end; [discriminate|]. destruct (rng_new exti rngi (wi - 1) 1) as [irng|]; [|discriminate]. cbn [bind] in H.
  destruct (rng_new extw rngw (ww - 1) 1) as [wrng|]; [|discriminate]. cbn [bind] in H.
  set (cm := (2 ^ (Nat.max wi ww - 1))%nat) in *.
  assert (CM : 1 <= Z.of_nat cm) by (unfold cm; assert (2 ^ (Nat.max wi ww - 1) <> 0)%nat by (apply Nat.pow_nonzero; lia); lia).
  assert (CE : Z.of_nat cm <= 2 ^ (Z.max (Z.of_nat wi) (Z.of_nat ww) - 1) \/ Z.max (Z.of_nat wi) (Z.of_nat ww) = 0).
  { destruct (Z.eq_dec (Z.max (Z.of_nat wi) (Z.of_nat ww)) 0) as [E|N]; [right; exact E|left]. unfold cm. rewrite Nat2Z.inj_pow. apply Z.pow_le_mono_r; lia. }
  match type of H with (let '(_, _) := ?p in _) = _ => destruct p as [ctler ctlee] end.
  match type of H with (if ?c then _ else _) = _ => destruct c eqn:Fits end; [discriminate|]. apply negb_false_iff, andb_true_iff in Fits. destruct Fits as [_ F2].
  apply orb_true_iff in F2. rewrite !Nat.eqb_eq in F2.
  destruct (cm =? 1)%nat eqn:C1; [discriminate|]. apply Nat.eqb_neq in C1.
  assert (CE' : Z.of_nat cm <= 2 ^ (Z.max (Z.of_nat wi) (Z.of_nat ww) - 1)).
  { destruct CE as [CE|CE]; [exact CE|]. exfalso. apply C1. unfold cm. replace (Nat.max wi ww - 1)%nat with O by lia. reflexivity. }
  assert (G : forall row v, In row (hub_map c) -> In v row -> 0 <= v <= Z.of_nat cm); [|intros row v H1 H2; specialize (G row v H1 H2); lia].
  match type of H with (if ?c then _ else _) = _ => destruct c end; injection H as <-; cbn [hub_map]; apply hub_table_bound; [|lia].
  destruct (length ctlee =? 1)%nat; [rewrite repeat_length; lia|lia].
Qed.

Theorem hub32_layer : forall exti extw widthi widthw rngi rngw cyc c ri rw ro x w bias t,
  hub_new exti extw widthi widthw rngi rngw cyc = Ok c -> Forall single x -> Forall single w -> x <> [] -> ro <= 149 ->
  zlen x * 2 ^ (Z.max (Z.of_nat widthi) (Z.of_nat widthw) - 1) <= 2 ^ 24 ->
  Permutation (leaves t) (map2 (hub32_term c ri rw) x w) ->
  exists o, hub_forward c ri rw ro [x] [w] None = [[o]] /\ (out32 t ro bias == match bias with None => o | Some b => f32 (o + b) end)%Q.
Proof.
  intros exti extw wi ww rngi rngw cyc c ri rw ro x w bias t H Hx Hw Hne Hr HL P.
  apply (hub32_exact c (2 ^ (Z.max (Z.of_nat wi) (Z.of_nat ww) - 1))); try assumption; [exact (hub_new_bound _ _ _ _ _ _ _ _ H)|].
  apply Z.pow_nonneg. lia.
Qed.

(** ** FXPLinear *)
Lemma qclamp_inject a b z : (qclamp (inject_Z a) (inject_Z b) (inject_Z z) == inject_Z (zclamp a b z))%Q.
Proof.
  unfold qclamp, zclamp. rewrite <- qmin_inject. apply qmin_comp; [apply qmax_inject|reflexivity].
Qed.
Lemma fxp32_int r M x : 1 <= M -> single x -> (fxp32_quant r M x == inject_Z (fxp_quant r M x))%Q.
Proof. intros HM Hx. unfold fxp32_quant, fxp_quant. rewrite round_shift by exact Hx. apply qclamp_inject. Qed.
Lemma fxp_abs r M x : 1 <= M -> Z.abs (fxp_quant r M x) <= M - 1.
Proof. intros HM. unfold fxp_quant, zclamp. lia. Qed.
Lemma fxp_terms ri rw mi mw : 1 <= mi -> 1 <= mw -> forall x w, Forall single x -> Forall single w ->
  Forall2 (fun q z => (q == inject_Z z)%Q) (map2 (fxp32_term ri rw mi mw) x w) (map2 (fun a b => fxp_quant ri mi a * fxp_quant rw mw b) x w) /\
  zsum (map Z.abs (map2 (fun a b => fxp_quant ri mi a * fxp_quant rw mw b) x w)) <= zlen x * ((mi - 1) * (mw - 1)).
Proof.
  intros H1 H2. induction x as [|a x IH]; intros w Hx Hw; [split; [constructor|cbn; lia]|].
  inversion Hx as [|? ? Ha Hx']; subst. destruct w as [|b w]; [split; [cbn [map2]; constructor|unfold zlen; cbn [length map2 map zsum]; apply Z.mul_nonneg_nonneg; [lia|nia]]|].
  inversion Hw as [|? ? Hb Hw']; subst. destruct (IH w Hx' Hw') as [F S]. cbn [map2]. split.
  - constructor; [|exact F]. unfold fxp32_term. rewrite !fxp32_int by assumption. rewrite <- inject_Z_mult. reflexivity.
  - cbn [map zsum]. unfold zlen in *. cbn [length]. pose proof (fxp_abs ri mi a H1). pose proof (fxp_abs rw mw b H2).
    assert (Z.abs (fxp_quant ri mi a * fxp_quant rw mw b) <= (mi - 1) * (mw - 1)) by (rewrite Z.abs_mul; nia). lia.
Qed.
Theorem fxp32_exact : forall ri rw ro mi mw x w bias t, 1 <= mi -> 1 <= mw -> Forall single x -> Forall single w ->
  zlen x * ((mi - 1) * (mw - 1)) <= 2 ^ 24 -> ro <= 149 ->
  Permutation (leaves t) (map2 (fxp32_term ri rw mi mw) x w) ->
  exists o, fxp_forward ri rw ro mi mw [x] [w] None = [[o]] /\ (out32 t ro bias == match bias with None => o | Some b => f32 (o + b) end)%Q.
Proof.
  intros ri rw ro mi mw x w bias t H1 H2 Hx Hw HL Hr P. destruct (fxp_terms ri rw mi mw H1 H2 x w Hx Hw) as [F S].
  exists (qshr (inject_Z (zsum (map2 (fun a b => fxp_quant ri mi a * fxp_quant rw mw b) x w))) ro). split; [reflexivity|].
  apply out32_exact; [apply (int_tree t _ _ P F); lia| |exact Hr].
  pose proof (zsum_abs (map2 (fun a b => fxp_quant ri mi a * fxp_quant rw mw b) x w)). lia.
Qed.
(** With one input more than the bound allows for max_abs = 256 there is data whose exact result no order of summation can give. *)
Lemma not_single z : 2 ^ 24 < Z.abs z -> Z.odd z = true -> ~ single (inject_Z z).
Proof.
  intros Hz Ho (n & k & Hn & Hk & E). change (Qpower 2 k) with (qpow2 k) in E.
  destruct (Z_lt_le_dec 0 k) as [P|N].
  - rewrite qpow2_Z in E by lia. rewrite <- inject_Z_mult in E. apply (proj1 (inject_Z_injective _ _)) in E. subst z.
    rewrite Z.odd_mul, (Z.odd_pow 2 k) in Ho by lia. rewrite andb_false_r in Ho. discriminate.
  - assert (E2 : (inject_Z n == inject_Z (z * 2 ^ (- k)))%Q).
    { rewrite inject_Z_mult, <- qpow2_Z by lia. rewrite E, <- Qmult_assoc, <- qpow2_add. replace (k + - k) with 0 by lia. change (qpow2 0) with 1%Q. ring. }
    apply (proj1 (inject_Z_injective _ _)) in E2. subst n. rewrite Z.abs_mul in Hn. assert (1 <= Z.abs (2 ^ (- k))) by (pose proof (Z.pow_pos_nonneg 2 (- k) ltac:(lia) ltac:(lia)); lia). nia.
Qed.
Lemma eval_single t : single (eval32 t).
Proof. destruct t; cbn [eval32]; try apply f32_single. exists 0, 0. split; [lia|]. split; [lia|reflexivity]. Qed.
Theorem fxp32_limit : exists x w, zlen x = 259 /\ zlen w = 259 /\ Forall single x /\ Forall single w /\
  forall t, Permutation (leaves t) (map2 (fxp32_term 0 0 256 256) x w) ->
  exists o, fxp_forward 0 0 0 256 256 [x] [w] None = [[o]] /\ ~ (out32 t 0 None == o)%Q.
Proof.
  exists (repeat 255%Q 259), (repeat 255%Q 259). split; [reflexivity|]. split; [reflexivity|].
  assert (S : single 255%Q) by (exists 255, 0; split; [lia|split; [lia|reflexivity]]).
  assert (FS : Forall single (repeat 255%Q 259)) by (apply Forall_forall; intros q Hq; apply repeat_spec in Hq; subst; exact S).
  split; [exact FS|]. split; [exact FS|]. intros t P.
  eexists. split; [vm_compute; reflexivity|].
  assert (N : ~ single (inject_Z 16841475)) by (apply not_single; [lia|reflexivity]).
  assert (NN : forall q, single q -> ~ (q == 16841475 # 1)%Q).
  { intros q (n & k & A & B & C) E. apply N. exists n, k. split; [exact A|]. split; [exact B|]. rewrite <- C, E. reflexivity. }
  apply NN. unfold out32. apply f32_single.
Qed.

(** ** BinGen *)
Theorem bingen32_unipolar : forall w s, single s -> bingen32 Unipolar w s = bingen Unipolar w s.
Proof.
  intros w s Hs. unfold bingen32, bingen. cbv zeta.
  assert (E : (s * inject_Z (p2 w) == qshr s (- Z.of_nat w))%Q).
  { unfold qshr. rewrite qpow2_opp. unfold p2. rewrite <- qpow2_Z by lia. pose proof (qpow2_pos (Z.of_nat w)). field. lra. }
  rewrite (qround_comp _ _ (f32_comp _ _ E)), (qround_comp _ _ E). apply round_shift. exact Hs.
Qed.
Lemma half_single r : single r -> (r == 0)%Q \/ (qpow2 (-100) <= Qabs r)%Q -> single (r / 2).
Proof.
  intros (n & k & Hn & Hk & E) [Z|B]; [exists 0, 0; split; [lia|]; split; [lia|]; rewrite Z; reflexivity|].
  change (Qpower 2 k) with (qpow2 k) in E. rewrite E, Qabs_Qmult, inject_abs, (Qabs_pos (qpow2 k)) in B by (apply Qlt_le_weak, qpow2_pos).
  assert (K : -125 < k).
  { apply qpow2_lt_inv. apply (inject_Z_le_iff (Z.abs n) (2 ^ 24)) in Hn. rewrite <- qpow2_Z in Hn by lia. pose proof (qpow2_pos k).
    assert (D : (qpow2 (-100) == qpow2 24 * (2 * qpow2 (-125)))%Q) by (vm_compute; reflexivity). pose proof (qpow2_pos (-125)). pose proof (qpow2_pos 24). nra. }
  exists n, (k - 1). split; [exact Hn|]. split; [lia|]. change (Qpower 2 (k - 1)) with (qpow2 (k + - (1))). rewrite qpow2_add, E. change (qpow2 (- (1))) with (1 # 2)%Q. field.
Qed.
Lemma one_plus s : single s -> (s + 1 == 0)%Q \/ (qpow2 (-24) <= Qabs (s + 1))%Q.
Proof.
  intros (n & k & Hn & Hk & E). change (Qpower 2 k) with (qpow2 k) in E. destruct (Z_le_gt_dec (-24) k) as [L|G].
  - rewrite (multiple_split n k (-24) L) in E. set (m := n * 2 ^ (k - -24)) in *.
    assert (E1 : (s + 1 == inject_Z (m + 2 ^ 24) * qpow2 (-24))%Q).
    { rewrite E, inject_Z_plus. assert (D : (inject_Z (2 ^ 24) * qpow2 (-24) == 1)%Q) by (vm_compute; reflexivity). lra. }
    destruct (Z.eq_dec (m + 2 ^ 24) 0) as [Z|N]; [left; rewrite E1, Z; reflexivity|right].
    rewrite E1, Qabs_Qmult, inject_abs, (Qabs_pos (qpow2 (-24))) by (apply Qlt_le_weak, qpow2_pos).
    assert (1 <= inject_Z (Z.abs (m + 2 ^ 24)))%Q by (change 1%Q with (inject_Z 1); apply inject_Z_le_iff; lia). pose proof (qpow2_pos (-24)). nra.
  - right. assert (B : (Qabs s <= 1 # 2)%Q).
    { rewrite E, Qabs_Qmult, inject_abs, (Qabs_pos (qpow2 k)) by (apply Qlt_le_weak, qpow2_pos).
      apply Qle_trans with (inject_Z (2 ^ 24) * qpow2 k)%Q; [apply Qmult_le_compat_r; [apply inject_Z_le_iff, Hn|apply Qlt_le_weak, qpow2_pos]|].
      rewrite <- qpow2_Z, <- qpow2_add by lia. apply Qle_trans with (qpow2 (-1)); [apply qpow2_le; lia|vm_compute; discriminate]. }
    apply Qabs_Qle_condition in B. rewrite Qabs_pos by lra. apply Qle_trans with (1 # 2)%Q; [vm_compute; discriminate|lra].
Qed.
Lemma f32_far q : (q == 0)%Q \/ (qpow2 (-24) <= Qabs q)%Q -> (f32 q == 0)%Q \/ (qpow2 (-100) <= Qabs (f32 q))%Q.
Proof.
  intros [Z|B]; [left; rewrite (f32_zero q Z); reflexivity|right].
  assert (C : (qpow2 (-24) <= Qabs (f32 q))%Q); [|eapply Qle_trans; [|exact C]; apply qpow2_le; lia].
  assert (S : (f32 (qpow2 (-24)) == qpow2 (-24))%Q) by (vm_compute; reflexivity). assert (S' : (f32 (- qpow2 (-24)) == - qpow2 (-24))%Q) by (vm_compute; reflexivity).
  destruct (Qlt_le_dec q 0) as [N|P].
  - rewrite Qabs_neg in B by lra. assert (M : (q <= - qpow2 (-24))%Q) by lra. apply f32_monotone in M. rewrite S' in M.
    pose proof (Qle_Qabs (- f32 q)) as A. rewrite Qabs_opp in A. lra.
  - rewrite Qabs_pos in B by lra. apply f32_monotone in B. rewrite S in B. pose proof (Qle_Qabs (f32 q)). lra.
Qed.
Lemma round_scaled w b : single b -> qround (f32 (b * inject_Z (p2 w))) = qround (b * inject_Z (p2 w)).
Proof. intros H. apply (bingen32_unipolar w b H). Qed.
Lemma bingen32_bipolar_eq w s : single s -> bingen32 Bipolar w s = qround (f32 (s + 1) / 2 * inject_Z (p2 w)).
Proof.
  intros Hs. unfold bingen32. cbv zeta. rewrite round_scaled by apply f32_single. apply qround_comp.
  rewrite (f32_fixed (f32 (s + 1) / 2)); [reflexivity|]. apply half_single; [apply f32_single|apply f32_far, one_plus, Hs].
Qed.
Theorem bingen32_grid : forall m w s, single s -> (-(1) <= s <= 1)%Q -> dyadic 23 s -> bingen32 m w s = bingen m w s.
Proof.
  intros [|] w s Hs Hr Hd; [apply bingen32_unipolar, Hs|]. rewrite bingen32_bipolar_eq by exact Hs. unfold bingen. cbv zeta. apply qround_comp.
  rewrite (f32_dyadic 23 (s + 1)); [reflexivity|lia| |].
  - apply dyadic_plus; [exact Hd|]. apply (dyadic_int 23 1). lia.
  - rewrite Qabs_pos by lra. change (qpow2 (24 - 23)) with 2%Q. lra.
Qed.
Lemma f32_plus1 s : (-(1) <= s <= 1)%Q -> (Qabs (f32 (s + 1) - (s + 1)) <= qpow2 (-24))%Q.
Proof.
  intros H. destruct (Qlt_le_dec s 1) as [L|G]; [apply f32_small; rewrite Qabs_pos by lra; lra|].
  assert (E : (s + 1 == 2)%Q) by lra. assert (F : (f32 (s + 1) == 2)%Q) by (rewrite (f32_comp _ 2%Q E); vm_compute; reflexivity). setoid_replace (f32 (s + 1) - (s + 1))%Q with 0%Q by lra. vm_compute. discriminate.
Qed.
Theorem bingen32_error : forall w s, single s -> (-(1) <= s <= 1)%Q ->
  (Qabs (2 * (inject_Z (bingen32 Bipolar w s) / inject_Z (2 ^ Z.of_nat w)) - 1 - s) <= 1 / inject_Z (2 ^ Z.of_nat w) + qpow2 (-24))%Q.
Proof.
  intros w s Hs Hr. rewrite bingen32_bipolar_eq by exact Hs. pose proof (f32_plus1 s Hr) as E. change (p2 w) with (2 ^ Z.of_nat w). set (P := inject_Z (2 ^ Z.of_nat w)).
  assert (HP : (0 < P)%Q) by (unfold P; change 0%Q with (inject_Z 0); rewrite <- Zlt_Qlt; apply Z.pow_pos_nonneg; lia).
  set (r := f32 (s + 1)) in *. clearbody P r. pose proof (qround_bounds (r / 2 * P)) as [B1 B2]. set (k := inject_Z (qround (r / 2 * P))) in *. clearbody k.
  assert (KP : (k / P * P == k)%Q) by (field; lra). assert (IP : (1 / P * P == 1)%Q) by (field; lra). set (x := (k / P)%Q) in *. set (y := (1 / P)%Q) in *. clearbody x y.
  set (e := qpow2 (-24)) in *. clearbody e. apply Qabs_Qle_condition in E. apply Qabs_Qle_condition.
  assert (E1 : ((x - r / 2) * P == k - r / 2 * P)%Q) by (rewrite <- KP; field). assert (E2 : (y / 2 * P == 1 # 2)%Q) by (setoid_replace (y / 2 * P)%Q with (y * P / 2)%Q by field; rewrite IP; reflexivity).
  assert (E3 : ((r / 2 - x) * P == r / 2 * P - k)%Q) by (rewrite <- KP; field).
  assert (x - r / 2 <= y / 2)%Q by (apply (Qmult_le_r _ _ P HP); rewrite E1, E2; lra).
  assert (r / 2 - x <= y / 2)%Q by (apply (Qmult_le_r _ _ P HP); rewrite E3, E2; lra). unfold Qdiv in *. change (/ 2)%Q with (1 # 2)%Q in *. lra.
Qed.
Theorem bingen32_near : forall w s, single s -> (-(1) <= s <= 1)%Q -> (w <= 23)%nat -> Z.abs (bingen32 Bipolar w s - bingen Bipolar w s) <= 1.
Proof.
  intros w s Hs Hr Hw. rewrite bingen32_bipolar_eq by exact Hs. unfold bingen. cbv zeta. pose proof (f32_plus1 s Hr) as E. set (P := inject_Z (p2 w)).
  assert (HP : (0 < P <= qpow2 23)%Q).
  { unfold P, p2. rewrite qpow2_Z by lia. split; [change 0%Q with (inject_Z 0); rewrite <- Zlt_Qlt; apply Z.pow_pos_nonneg; lia|].
    apply inject_Z_le_iff. apply Z.pow_le_mono_r; lia. }
  set (r := f32 (s + 1)) in *. clearbody P r. assert (D : (Qabs (r / 2 * P - (s + 1) / 2 * P) <= 1 # 4)%Q).
  { setoid_replace (r / 2 * P - (s + 1) / 2 * P)%Q with ((r - (s + 1)) * (P / 2))%Q by field. rewrite Qabs_Qmult.
    assert (PP : (0 <= P / 2 <= qpow2 23 / 2)%Q) by (unfold Qdiv; change (/ 2)%Q with (1 # 2)%Q; lra). assert (PA : (Qabs (P / 2) == P / 2)%Q) by (apply Qabs_pos; tauto).
    apply Qle_trans with (qpow2 (-24) * (qpow2 23 / 2))%Q; [|vm_compute; discriminate]. setoid_rewrite PA.
    apply Qmult_le_compat_nonneg; [split; [apply Qabs_nonneg|exact E]|exact PP]. }
  apply Qabs_Qle_condition in D. pose proof (qround_bounds (r / 2 * P)) as [B1 B2]. pose proof (qround_bounds ((s + 1) / 2 * P)) as [C1 C2].
  set (a := qround (r / 2 * P)) in *. set (b := qround ((s + 1) / 2 * P)) in *. clearbody a b.
  assert (a - b < 2) by (rewrite Zlt_Qlt; unfold Z.sub; rewrite inject_Z_plus, inject_Z_opp; change (inject_Z 2) with 2%Q; lra).
  assert (-2 < a - b) by (rewrite Zlt_Qlt; unfold Z.sub; rewrite inject_Z_plus, inject_Z_opp; change (inject_Z (-2)) with (-2)%Q; lra). lia.
Qed.
Theorem bingen32_differs : exists w s, single s /\ (-(1) <= s <= 1)%Q /\ bingen32 Bipolar w s <> bingen Bipolar w s.
Proof.
  exists 8%nat, (inject_Z (2 ^ 23 + 1) * Qpower 2 (-31))%Q. split; [exists (2 ^ 23 + 1), (-31); split; [lia|]; split; [lia|reflexivity]|].
  split; [split; vm_compute; discriminate|vm_compute; discriminate].
Qed.
