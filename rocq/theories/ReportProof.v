(** Proofs about the reports. *)
From Coq Require Import String Lqa.
Require Import Verif.Base Verif.BaseLemmas Verif.Spec Verif.MetricModel Verif.MetricProof Verif.UtilsModel Verif.UtilsProof
  Verif.ReportModel Verif.ReportSpec.
Open Scope list_scope.
Open Scope Z_scope.

Lemma all_num_some l : all_num (map Some l) = Some l.
Proof. induction l as [|x l IH]; [reflexivity|]. cbn. rewrite IH. reflexivity. Qed.
Lemma all_num_none l : In None l -> all_num l = None.
Proof.
  induction l as [|[x|] l IH]; cbn; [tauto| |reflexivity]. intros [H|H]; [discriminate|]. rewrite IH by exact H. reflexivity.
Qed.

(** Sums. *)
Lemma sq_mul x : (x ^ 2 == x * x)%Q.
Proof. ring. Qed.
Lemma sq_nonneg x : (0 <= x ^ 2)%Q.
Proof. rewrite sq_mul. nra. Qed.
Lemma forall2_len {A B} {R : A -> B -> Prop} {l l'} : Forall2 R l l' -> length l = length l'.
Proof. induction 1; cbn; congruence. Qed.
Lemma qsum_eq l l' : Forall2 Qeq l l' -> (qsum l == qsum l')%Q.
Proof. induction 1; cbn [qsum]; [reflexivity|]. rewrite H, IHForall2. reflexivity. Qed.
Lemma zlen_eq {A B} (R : A -> B -> Prop) l l' : Forall2 R l l' -> zlen l = zlen l'.
Proof. intros H. unfold zlen. rewrite (forall2_len H). reflexivity. Qed.
Lemma forall2_map_eq (f : Q -> Q) l l' : (forall x y, (x == y -> f x == f y)%Q) -> Forall2 Qeq l l' -> Forall2 Qeq (map f l) (map f l').
Proof. intros Hf. induction 1; constructor; auto. Qed.

Lemma zlen_pos {A} (l : list A) : l <> [] -> 0 < zlen l.
Proof. destruct l; [contradiction|]. intros _. unfold zlen. cbn [length]. lia. Qed.
Lemma zlen_q {A} (l : list A) : l <> [] -> (0 < inject_Z (zlen l))%Q.
Proof. intros H. apply zlen_pos in H. rewrite (Zlt_Qlt 0) in H. exact H. Qed.

Lemma mean_is l : l <> [] -> is_mean l (mean_of l).
Proof. intros H. apply zlen_q in H. unfold is_mean, mean_of. field. lra. Qed.
Lemma is_mean_eq l l' m : Forall2 Qeq l l' -> is_mean l m -> is_mean l' m.
Proof. unfold is_mean. intros H E. rewrite <- (zlen_eq _ _ _ H), E. apply qsum_eq, H. Qed.
Lemma range_eq l l' lo hi : Forall2 Qeq l l' -> range_of l lo hi -> range_of l' lo hi.
Proof.
  intros H ((x & Hx & Ex) & (y & Hy & Ey) & F).
  assert (G : forall z w, (z == w)%Q -> In z l -> exists z', In z' l' /\ (z' == w)%Q).
  { clear - H. intros z w E. induction H as [|a b l l' Hab H IH]; cbn; [tauto|].
    intros [->|Hi]; [exists b; split; [auto|]; rewrite <- Hab; exact E|].
    destruct (IH Hi) as (z' & A & B). exists z'. auto. }
  split; [exact (G x lo Ex Hx)|]. split; [exact (G y hi Ey Hy)|].
  clear - H F. induction H as [|a b l l' Hab H IH]; constructor.
  - apply Forall_inv in F. rewrite <- Hab. exact F.
  - apply IH. eapply Forall_inv_tail, F.
Qed.
Lemma variance_eq l l' m v : Forall2 Qeq l l' -> is_variance l m v -> is_variance l' m v.
Proof.
  unfold is_variance. intros H E. rewrite <- (zlen_eq _ _ _ H), E. apply qsum_eq. apply forall2_map_eq; [|exact H].
  intros x y e. cbn [Qpower Qpower_positive]. rewrite e. reflexivity.
Qed.

Lemma describes_list l : l <> [] -> describes l [Num (qmin_list l); Num (qmax_list l); std_of l; Num (mean_of l); rmse_of l].
Proof.
  intros Hn. exists (qmin_list l), (qmax_list l), (std_of l), (mean_of l), (mean_of (map (fun x => x * x)%Q l)).
  split; [reflexivity|]. destruct (min_max_extremes l Hn) as (A & B & C).
  split; [split; [exists (qmin_list l); split; [exact A|reflexivity]|split; [exists (qmax_list l); split; [exact B|reflexivity]|]];
          eapply Forall_impl; [|exact C]; intros x Hx; exact Hx|].
  split; [apply mean_is, Hn|].
  split.
  { apply (is_mean_eq (map (fun x => x * x)%Q l)).
    - clear. induction l; constructor; [|assumption]. cbn [Qpower Qpower_positive]. reflexivity.
    - apply mean_is. destruct l; [contradiction|discriminate]. }
  unfold std_of, zlen. destruct (Z.of_nat (length l) =? 1) eqn:E; [left; split; [lia|reflexivity]|right].
  assert (0 < zlen l) by (apply zlen_pos, Hn). unfold zlen in *. split; [lia|]. exists (var_of l). split; [reflexivity|].
  unfold is_variance, var_of.
  assert (Hp : (0 < inject_Z (zlen l - 1))%Q) by (change 0%Q with (inject_Z 0); rewrite <- Zlt_Qlt; unfold zlen; lia).
  assert (Es : (qsum (map (fun x => (x - mean_of l) * (x - mean_of l)) l) == qsum (map (fun x => (x - mean_of l) ^ 2) l))%Q).
  { apply qsum_eq. generalize (mean_of l). intros q. clear. induction l; constructor; [|assumption].
    cbn [Qpower Qpower_positive]. reflexivity. }
  rewrite <- Es. field. lra.
Qed.
Lemma describes_eq l l' s : Forall2 Qeq l l' -> describes l s -> describes l' s.
Proof.
  intros H (lo & hi & sd & mean & r & -> & R & M & S2 & V).
  exists lo, hi, sd, mean, r. split; [reflexivity|]. split; [apply (range_eq l), R; exact H|].
  split; [apply (is_mean_eq l), M; exact H|].
  split; [apply (is_mean_eq (map (fun x => x ^ 2)%Q l)), S2|].
  { apply forall2_map_eq; [|exact H]. intros x y e. cbn [Qpower Qpower_positive]. rewrite e. reflexivity. }
  rewrite <- (forall2_len H). destruct V as [V|(V1 & v & V2 & V3)]; [left; exact V|right].
  split; [exact V1|]. exists v. split; [exact V2|]. apply (variance_eq l), V3. exact H.
Qed.

(** Consequences. *)
Lemma qsum_bounds l lo hi : Forall (fun x => lo <= x <= hi)%Q l -> (inject_Z (zlen l) * lo <= qsum l <= inject_Z (zlen l) * hi)%Q.
Proof.
  induction l as [|x l IH]; intros H; [change (inject_Z (zlen (@nil Q))) with 0%Q; cbn [qsum]; split; lra|].
  assert (H1 := Forall_inv H). assert (H2 := IH (Forall_inv_tail H)). clear IH H.
  assert (E : (inject_Z (zlen (x :: l)) == inject_Z (zlen l) + 1)%Q).
  { unfold zlen. cbn [length]. rewrite Nat2Z.inj_succ. unfold Z.succ. rewrite inject_Z_plus. reflexivity. }
  cbn [qsum]. cbv beta in H1. rewrite E. lra.
Qed.
Lemma qsum_sq_dev l m : (qsum (map (fun x => (x - m) ^ 2) l) == qsum (map (fun x => x ^ 2) l) - 2 * m * qsum l + inject_Z (zlen l) * m ^ 2)%Q.
Proof.
  induction l as [|x l IH]; [change (inject_Z (zlen (@nil Q))) with 0%Q; cbn [map qsum]; ring|].
  assert (E : (inject_Z (zlen (x :: l)) == inject_Z (zlen l) + 1)%Q).
  { unfold zlen. cbn [length]. rewrite Nat2Z.inj_succ. unfold Z.succ. rewrite inject_Z_plus. reflexivity. }
  cbn [map qsum]. rewrite E, IH. ring.
Qed.
Lemma qsum_sq_nonneg l : (0 <= qsum (map (fun x => x ^ 2) l))%Q.
Proof.
  induction l as [|x l IH]; cbn [map qsum]; [lra|]. assert (0 <= x ^ 2)%Q by (apply sq_nonneg). lra.
Qed.
Lemma qsum_sq_zero l : (qsum (map (fun x => x ^ 2) l) == 0)%Q <-> Forall (fun x => x == 0)%Q l.
Proof.
  induction l as [|x l IH]; cbn [map qsum]; [split; [constructor|reflexivity]|].
  assert (A := qsum_sq_nonneg l). assert (B : (0 <= x ^ 2)%Q) by (apply sq_nonneg).
  split; intros H.
  - assert (C : (x ^ 2 == 0)%Q) by lra. assert (D : (qsum (map (fun x => x ^ 2) l) == 0)%Q) by lra.
    constructor; [|apply IH, D]. rewrite sq_mul in C. nra.
  - assert (C := Forall_inv H). assert (D := proj2 IH (Forall_inv_tail H)). cbv beta in C. rewrite D, C. reflexivity.
Qed.
Lemma is_mean_between l m lo hi : l <> [] -> is_mean l m -> Forall (fun x => lo <= x <= hi)%Q l -> (lo <= m <= hi)%Q.
Proof.
  intros Hn M F. apply zlen_q in Hn. apply qsum_bounds in F. unfold is_mean in M. rewrite <- M in F. clear M.
  generalize dependent (inject_Z (zlen l)). intros n Hn F. nra.
Qed.
Theorem describes_facts l lo hi sd mean r : l <> [] -> describes l [Num lo; Num hi; sd; Num mean; Root r] ->
  (lo <= mean <= hi)%Q /\ (mean ^ 2 <= r)%Q /\ (r == 0 <-> Forall (fun x => x == 0)%Q l)%Q /\
  (forall v, sd = Root v -> 0 <= v /\ r == mean ^ 2 + v * (inject_Z (zlen l - 1) / inject_Z (zlen l)))%Q.
Proof.
  intros Hn (lo' & hi' & sd' & mean' & r' & E & R & M & S2 & V).
  injection E as <- <- <- <- <-. destruct R as (_ & _ & R).
  assert (P := zlen_q _ Hn). assert (K := qsum_sq_dev l mean). assert (N := qsum_sq_nonneg l).
  assert (Z0 := qsum_sq_zero l).
  assert (Bt := is_mean_between l mean lo hi Hn M R).
  unfold is_mean in M, S2. unfold zlen in S2. rewrite map_length in S2. fold (zlen l) in S2.
  assert (D : (0 <= qsum (map (fun x => (x - mean) ^ 2) l))%Q).
  { clear. induction l as [|x l IH]; cbn [map qsum]; [lra|]. assert (0 <= (x - mean) ^ 2)%Q by (apply sq_nonneg). lra. }
  split; [exact Bt|]. 
  assert (KK : (qsum (map (fun x => (x - mean) ^ 2) l) == inject_Z (zlen l) * (r - mean ^ 2))%Q).
  { rewrite K, <- M, <- S2. ring. }
  split.
  { rewrite KK in D. clear - D P. generalize dependent (inject_Z (zlen l)). intros n D P. nra. }
  split.
  { rewrite <- Z0, <- S2. split; intros H; [rewrite H; ring|]. clear - H P. generalize dependent (inject_Z (zlen l)). intros n H P. nra. }
  intros v Ev. destruct V as [(_ & Ec)|(V1 & v' & Ec & V)]; [congruence|].
  assert (v' = v) by congruence. subst v'. unfold is_variance in V. rewrite KK in V.
  assert (Pq : (0 < inject_Z (zlen l - 1))%Q) by (change 0%Q with (inject_Z 0); rewrite <- Zlt_Qlt; unfold zlen; lia).
  split.
  - rewrite KK in D. rewrite <- V in D. clear - D Pq. generalize dependent (inject_Z (zlen l - 1)). intros n D P. nra.
  - clear - V P Pq. generalize dependent (inject_Z (zlen l - 1)). generalize dependent (inject_Z (zlen l)). intros n1 P n2 V Pq.
    transitivity (mean ^ 2 + (n2 * v) / n1)%Q; [rewrite V; field; lra|field; lra].
Qed.

(** The report. *)
Theorem report_value_raises o rel : progerror_report o true rel = ([], Some AttributeError).
Proof. reflexivity. Qed.
Theorem report_attributes o name : (exists v, pe_attribute o name = Ok v) <->
  In name ["source"; "cycle"; "one_cnt"; "pp"; "pe"]%string.
Proof.
  unfold pe_attribute. cbn [In].
  destruct (String.eqb_spec name "source") as [->|N1]; [split; [auto|intros _; eexists; reflexivity]|].
  destruct (String.eqb_spec name "cycle") as [->|N2]; [split; [auto|intros _; eexists; reflexivity]|].
  destruct (String.eqb_spec name "one_cnt") as [->|N3]; [split; [auto|intros _; eexists; reflexivity]|].
  destruct (String.eqb_spec name "pp") as [->|N4]; [split; [auto|intros _; eexists; reflexivity]|].
  destruct (String.eqb_spec name "pe") as [->|N5]; [split; [auto 6|intros _; eexists; reflexivity]|].
  split; [intros [v H]; discriminate|]. intros [H|[H|[H|[H|[H|[]]]]]]; congruence.
Qed.

Lemma monitored_call m scale h : streams_ok h ->
  exists vs es, pe_call (monitored m scale h) = (map Some vs, map Some es) /\ Forall2 Qeq vs (map (fun p => value m (snd p)) h) /\
    Forall2 Qeq es (map (error_of m scale) h) /\ Forall (src_ok m) vs.
Proof.
  unfold pe_call, monitored, streams_ok. cbn [po_mode po_scale po_lanes]. induction h as [|[src xs] h IH]; intros H.
  - exists [], []. repeat split; constructor.
  - destruct (IH (Forall_inv_tail H)) as (vs & es & E & V & F & R). destruct (Forall_inv H) as [Hb Hn]. cbn [snd] in *.
    destruct (progerror_all m scale src xs Hb Hn) as (pp & pe & E1 & E2 & E3 & E4 & _).
    exists (pp :: vs), (pe :: es). cbn [map fst snd]. injection E as Ea Eb. rewrite E1, Ea, Eb. cbn [option_map fst snd].
    split; [reflexivity|]. split; [constructor; assumption|]. split; [constructor; [exact E3|assumption]|constructor; assumption].
Qed.
Lemma map_some_ne {A} (l : list A) : l <> [] -> map Some l <> [].
Proof. destruct l; [contradiction|discriminate]. Qed.
Lemma summary_some l : l <> [] -> summary (map Some l) = Ok [Num (qmin_list l); Num (qmax_list l); std_of l; Num (mean_of l)].
Proof. intros H. unfold summary. rewrite all_num_some. destruct l; [contradiction|]. reflexivity. Qed.
Lemma rmse_some l : rmse (map Some l) = rmse_of l.
Proof. unfold rmse. rewrite all_num_some. reflexivity. Qed.

Theorem report_absolute m scale h : h <> [] -> streams_ok h ->
  exists s, progerror_report (monitored m scale h) false false = ([{| ln_label := "Absolute Error range"; ln_shown := s |}], None) /\
    describes (map (error_of m scale) h) s.
Proof.
  intros Hn Hs. destruct (monitored_call m scale h Hs) as (vs & es & E & V & F & _).
  assert (Ne : es <> []) by (intros ->; apply forall2_len in F; destruct h; [contradiction|discriminate]).
  unfold progerror_report. rewrite E. cbn [fst snd]. cbv zeta. rewrite summary_some, rmse_some by exact Ne.
  eexists. split; [reflexivity|]. cbn [app]. apply (describes_eq es); [exact F|]. apply describes_list, Ne.
Qed.

(** Relative errors. *)
Lemma value_fraction m xs : exists k, (value m xs == inject_Z k / inject_Z (zlen xs))%Q.
Proof. destruct m; eexists; reflexivity. Qed.
Lemma error_range m scale p v : src_ok m v -> (v == value m (snd p))%Q -> (-2 <= error_of m scale p <= 2)%Q.
Proof.
  intros S E. assert (C := qclamp_range (-1) 1 (fst p / scale) ltac:(lra)). unfold error_of. rewrite <- E.
  destruct m; cbn [src_ok] in S; lra.
Qed.
Lemma quotient_square e v k n : (-2 <= e <= 2)%Q -> 0 < n <= p2 60 -> (v == inject_Z k / inject_Z n)%Q -> ~ (v == 0)%Q ->
  ((e / v) * (e / v) <= flt_max)%Q.
Proof.
  intros He Hn Ev Hv.
  assert (Pn : (0 < inject_Z n)%Q) by (change 0%Q with (inject_Z 0); rewrite <- Zlt_Qlt; lia).
  assert (Hk : k <> 0). { intros ->. apply Hv. rewrite Ev. field. lra. }
  assert (Hk1 : (1 <= inject_Z k * inject_Z k)%Q).
  { rewrite <- inject_Z_mult. change 1%Q with (inject_Z 1). rewrite <- Zle_Qle. nia. }
  assert (Hk0 : ~ (inject_Z k == 0)%Q). { intros E. rewrite E in Hk1. lra. }
  assert (Hm : (inject_Z n * inject_Z n <= inject_Z (p2 60) * inject_Z (p2 60))%Q).
  { rewrite <- !inject_Z_mult, <- Zle_Qle. assert (0 < p2 60) by reflexivity. nia. }
  assert (E : ((e / v) * (e / v) == (e * e) * (inject_Z n * inject_Z n) / (inject_Z k * inject_Z k))%Q).
  { rewrite Ev. field. split; [exact Hk0|]. lra. }
  rewrite E. clear E.
  assert (Hee : (0 <= e * e <= 4)%Q) by (split; nra).
  apply Qle_trans with (4 * (inject_Z (p2 60) * inject_Z (p2 60)))%Q; [|vm_compute; discriminate].
  apply Qle_shift_div_r; [lra|].
  generalize dependent (inject_Z k * inject_Z k)%Q. generalize dependent (inject_Z n * inject_Z n)%Q.
  intros a Ha b Hb. set (c := (inject_Z (p2 60) * inject_Z (p2 60))%Q) in *.
  assert (0 <= c)%Q by (vm_compute; discriminate). clearbody c.
  assert (e * e * a <= 4 * c)%Q by nra. nra.
Qed.
Lemma qgt_iff a b : qgt a b = true <-> (b < a)%Q.
Proof. unfold qgt. rewrite negb_true_iff. split; intros H; [apply Qnot_le_lt; intros C; apply Qle_bool_iff in C; congruence|].
  destruct (Qle_bool a b) eqn:E; [|reflexivity]. apply Qle_bool_iff in E. lra. Qed.
Lemma flt_max_pos : (0 < flt_max)%Q.
Proof. reflexivity. Qed.
Lemma relative_value m scale p v e : (v == value m (snd p))%Q -> (e == error_of m scale p)%Q ->
  ~ divides_by_zero m scale p -> (relative (Some v) (Some e) == relative_of m scale p)%Q.
Proof.
  intros Ev Ee H. unfold relative, relative_of, divides_by_zero in *.
  destruct (Qeq_bool v 0) eqn:Z1.
  - apply Qeq_bool_iff in Z1. destruct (Qeq_bool e 0) eqn:Z2.
    + destruct (Qeq_dec (value m (snd p)) 0) as [D|D]; [reflexivity|]. exfalso. apply D. rewrite <- Ev. exact Z1.
    + exfalso. apply H. split; [rewrite <- Ev; exact Z1|]. intros C. rewrite <- Ee in C. apply Qeq_bool_iff in C. congruence.
  - assert (~ (v == 0)%Q) by (intros C; apply Qeq_bool_iff in C; congruence).
    destruct (Qeq_dec (value m (snd p)) 0) as [D|D]; [exfalso; apply H0; rewrite Ev; exact D|].
    rewrite Ev, Ee. reflexivity.
Qed.
Lemma relative_zero m scale p v e : (v == value m (snd p))%Q -> (e == error_of m scale p)%Q ->
  divides_by_zero m scale p -> relative (Some v) (Some e) = (if qgt (error_of m scale p) 0 then flt_max else - flt_max)%Q.
Proof.
  intros Ev Ee [H1 H2]. unfold relative.
  assert (Z1 : Qeq_bool v 0 = true) by (apply Qeq_bool_iff; rewrite Ev; exact H1).
  assert (Z2 : Qeq_bool e 0 = false).
  { destruct (Qeq_bool e 0) eqn:Z; [|reflexivity]. apply Qeq_bool_iff in Z. exfalso. apply H2. rewrite <- Ee. exact Z. }
  rewrite Z1, Z2. replace (qgt e 0) with (qgt (error_of m scale p) 0); [reflexivity|].
  apply eq_true_iff_eq. rewrite !qgt_iff, Ee. reflexivity.
Qed.
Lemma relatives m scale h : Forall (fun p => ~ divides_by_zero m scale p) h -> forall vs es,
  Forall2 Qeq vs (map (fun p => value m (snd p)) h) -> Forall2 Qeq es (map (error_of m scale) h) ->
  Forall2 Qeq (map2 relative (map Some vs) (map Some es)) (map (relative_of m scale) h).
Proof.
  induction h as [|p h IH]; intros H vs es V E.
  - inversion V; subst. constructor.
  - cbn [map] in *. inversion V as [|v ? vs' ? Hv Hvs]; subst. inversion E as [|e ? es' ? He Hes]; subst.
    cbn [map map2]. constructor; [apply relative_value; [exact Hv|exact He|exact (Forall_inv H)]|].
    apply IH; [exact (Forall_inv_tail H)|exact Hvs|exact Hes].
Qed.
Lemma relative_of_square m scale p v : src_ok m v -> (v == value m (snd p))%Q -> snd p <> [] -> zlen (snd p) <= p2 60 ->
  (relative_of m scale p * relative_of m scale p <= flt_max)%Q.
Proof.
  intros S E Hn Hl. unfold relative_of. destruct (Qeq_dec (value m (snd p)) 0) as [D|D]; [vm_compute; discriminate|].
  destruct (value_fraction m (snd p)) as [k Hk]. apply (quotient_square _ _ k (zlen (snd p))).
  - exact (error_range m scale p v S E).
  - split; [apply zlen_pos, Hn|exact Hl].
  - exact Hk.
  - exact D.
Qed.
Theorem report_relative m scale h : h <> [] -> streams_ok h -> streams_short h -> Forall (fun p => ~ divides_by_zero m scale p) h ->
  exists s s', progerror_report (monitored m scale h) false true =
    ([{| ln_label := "Absolute Error range"; ln_shown := s |}; {| ln_label := "Relative Error range"; ln_shown := s' |}], None) /\
    describes (map (error_of m scale) h) s /\ describes (map (relative_of m scale) h) s'.
Proof.
  intros Hn Hs Hsh Hz. destruct (monitored_call m scale h Hs) as (vs & es & E & V & F & S).
  assert (Ne : es <> []) by (intros ->; apply forall2_len in F; destruct h; [contradiction|discriminate]).
  assert (G := relatives m scale h Hz vs es V F).
  assert (Nr : map2 relative (map Some vs) (map Some es) <> []).
  { intros C. rewrite C in G. apply forall2_len in G. destruct h; [contradiction|discriminate]. }
  unfold progerror_report. rewrite E. cbn [fst snd]. cbv zeta. rewrite summary_some, rmse_some by exact Ne.
  eexists. eexists. split; [reflexivity|]. split; [apply (describes_eq es); [exact F|]; apply describes_list, Ne|].
  apply (describes_eq _ _ _ G). unfold relative_shown.
  replace (existsb _ _) with false; [apply describes_list, Nr|]. symmetry.
  assert (A : forall x, In x (map (relative_of m scale) h) -> (x * x <= flt_max)%Q).
  { clear - Hs Hsh V S. revert vs V S. induction h as [|p h IH]; cbn [map In]; [tauto|]. intros vs V S x [<-|Hx].
    - inversion V as [|v ? vs' ? Hv Hvs]; subst. destruct (Forall_inv Hs) as [_ Hq].
      apply (relative_of_square m scale p v (Forall_inv S) Hv Hq (Forall_inv Hsh)).
    - inversion V as [|v ? vs' ? Hv Hvs]; subst.
      apply (IH (Forall_inv_tail Hs) (Forall_inv_tail Hsh) vs' Hvs (Forall_inv_tail S) x Hx). }
  clear - G A. induction G as [|x y l l' Hxy G IH]; [reflexivity|]. cbn [existsb].
  rewrite IH by (intros z Hz; apply A; right; exact Hz).
  assert (B := A y (or_introl eq_refl)). rewrite <- Hxy in B. unfold qgt. apply Qle_bool_iff in B. rewrite B. reflexivity.
Qed.
Lemma relative_bound m scale h : streams_ok h -> streams_short h -> forall vs es,
  Forall2 Qeq vs (map (fun p => value m (snd p)) h) -> Forall2 Qeq es (map (error_of m scale) h) -> Forall (src_ok m) vs ->
  Forall (fun x => - flt_max <= x <= flt_max)%Q (map2 relative (map Some vs) (map Some es)).
Proof.
  induction h as [|p h IH]; intros Hs Hsh vs es V E S.
  - inversion V; subst. constructor.
  - cbn [map] in *. inversion V as [|v ? vs' ? Hv Hvs]; subst. inversion E as [|e ? es' ? He Hes]; subst.
    cbn [map map2]. constructor;
      [|apply IH; [exact (Forall_inv_tail Hs)|exact (Forall_inv_tail Hsh)|exact Hvs|exact Hes|exact (Forall_inv_tail S)]].
    destruct (Forall_inv Hs) as [_ Hq].
    assert (Dz : divides_by_zero m scale p \/ ~ divides_by_zero m scale p).
    { unfold divides_by_zero. destruct (Qeq_dec (value m (snd p)) 0); destruct (Qeq_dec (error_of m scale p) 0); tauto. }
    assert (Fp := flt_max_pos).
    destruct Dz as [D|D].
    + rewrite (relative_zero m scale p v e Hv He D). destruct (qgt (error_of m scale p) 0); lra.
    + rewrite (relative_value m scale p v e Hv He D).
      assert (B := relative_of_square m scale p v (Forall_inv S) Hv Hq (Forall_inv Hsh)).
      assert (1 <= flt_max)%Q by (vm_compute; discriminate).
      generalize dependent flt_max. intros M Fp B H1. split; nra.
Qed.
Theorem report_relative_overflow m scale h p : streams_ok h -> streams_short h -> In p h -> divides_by_zero m scale p ->
  exists s lo hi, progerror_report (monitored m scale h) false true =
    ([{| ln_label := "Absolute Error range"; ln_shown := s |};
      {| ln_label := "Relative Error range"; ln_shown := [Num lo; Num hi; Overflowed; Overflowed; Inf] |}], None) /\
    describes (map (error_of m scale) h) s /\
    (0 < error_of m scale p -> hi == float_max)%Q /\ (error_of m scale p < 0 -> lo == - float_max)%Q.
Proof.
  change float_max with flt_max. intros Hs Hsh Hp Hd. destruct (monitored_call m scale h Hs) as (vs & es & E & V & F & S).
  assert (Hn : h <> []) by (intros ->; contradiction).
  assert (Ne : es <> []) by (intros ->; apply forall2_len in F; destruct h; [contradiction|discriminate]).
  assert (Hin : In (if qgt (error_of m scale p) 0 then flt_max else - flt_max)%Q (map2 relative (map Some vs) (map Some es))).
  { clear - V F Hp Hd. revert vs es V F. induction h as [|q h IH]; [contradiction|]. intros vs es V F. cbn [map] in *.
    inversion V as [|v ? vs' ? Hv Hvs]; subst. inversion F as [|e ? es' ? He Hes]; subst. cbn [map map2].
    destruct Hp as [->|Hp]; [left; apply relative_zero; assumption|right; apply IH; assumption]. }
  assert (B := relative_bound m scale h Hs Hsh vs es V F S).
  unfold progerror_report. rewrite E. cbn [fst snd]. cbv zeta. rewrite summary_some, rmse_some by exact Ne.
  set (l := map2 relative (map Some vs) (map Some es)) in *. clearbody l.
  assert (Nl : l <> []) by (intros ->; contradiction).
  exists [Num (qmin_list es); Num (qmax_list es); std_of es; Num (mean_of es); rmse_of es], (qmin_list l), (qmax_list l).
  assert (X : existsb (fun x => qgt (x * x) flt_max) l = true).
  { apply existsb_exists. eexists. split; [exact Hin|]. apply qgt_iff. destruct (qgt (error_of m scale p) 0); reflexivity. }
  unfold relative_shown. rewrite X. split; [reflexivity|]. split; [apply (describes_eq es); [exact F|]; apply describes_list, Ne|].
  destruct (min_max_extremes l Nl) as (I1 & I2 & I3).
  rewrite Forall_forall in B, I3. assert (B1 := B _ I1). assert (B2 := B _ I2). assert (B3 := I3 _ Hin).
  assert (Fp := flt_max_pos).
  split; intros He.
  - apply qgt_iff in He. rewrite He in B3. lra.
  - assert (Hf : qgt (error_of m scale p) 0 = false).
    { destruct (qgt (error_of m scale p) 0) eqn:Q1; [|reflexivity]. apply qgt_iff in Q1. lra. }
    rewrite Hf in B3. lra.
Qed.

(** Before anything was monitored: the absolute errors are nan, the relative ones exactly 0. *)
Theorem report_unmonitored m scale srcs : srcs <> [] ->
  let o := {| po_mode := m; po_scale := scale; po_lanes := map (fun s => (s, pe_init)) srcs |} in
  exists s, progerror_report o false true =
    ([{| ln_label := "Absolute Error range"; ln_shown := [Nan; Nan; Nan; Nan; Nan] |};
      {| ln_label := "Relative Error range"; ln_shown := s |}], None) /\
    describes (repeat 0%Q (length srcs)) s.
Proof.
  intros Hn o.
  assert (E : pe_call o = (repeat None (length srcs), repeat None (length srcs))).
  { unfold pe_call, o. cbn [po_mode po_scale po_lanes]. clear. induction srcs as [|s l IH]; [reflexivity|]. cbn [map length repeat].
    injection IH as I1 I2. rewrite I1, I2. reflexivity. }
  assert (A : forall n, (0 < n)%nat -> summary (repeat None n) = Ok [Nan; Nan; Nan; Nan] /\ rmse (repeat None n) = Nan).
  { intros [|n] L; [lia|]. split; reflexivity. }
  assert (L : (0 < length srcs)%nat) by (destruct srcs; [contradiction|cbn; lia]).
  unfold progerror_report. rewrite E. cbn [fst snd]. cbv zeta. rewrite (proj1 (A _ L)), (proj2 (A _ L)).
  assert (R : forall n, map2 relative (repeat None n) (repeat None n) = repeat 0%Q n).
  { induction n as [|n IH]; [reflexivity|]. cbn [repeat map2]. rewrite IH. reflexivity. }
  rewrite R. eexists. split; [reflexivity|]. unfold relative_shown.
  replace (existsb _ _) with false.
  - apply describes_list. destruct (length srcs); [lia|discriminate].
  - symmetry. generalize (length srcs). intros n. induction n as [|n IH]; [reflexivity|]. cbn [repeat existsb]. rewrite IH. reflexivity.
Qed.
Theorem report_empty m scale rel : progerror_report {| po_mode := m; po_scale := scale; po_lanes := [] |} false rel = ([], Some RuntimeError).
Proof. reflexivity. Qed.

(** Outliers. *)
Lemma outlier_counts l : let out (x : Q) := negb (Qle_bool (-(1)) x && Qle_bool x 1) in
  zsum (map (fun x => match x with Some v => b2z (qgt v 1) | None => 0 end) (map Some l)) +
  zsum (map (fun x => match x with Some v => b2z (qgt (-(1)) v) | None => 0 end) (map Some l)) = countb out l.
Proof.
  intros out. induction l as [|x l IH]; [reflexivity|]. cbn [map zsum countb].
  assert (K : b2z (qgt x 1) + b2z (qgt (-(1)) x) = b2z (out x)).
  { unfold out, qgt. destruct (Qle_bool x 1) eqn:E1, (Qle_bool (-(1)) x) eqn:E2; try reflexivity.
    exfalso. assert (~ (x <= 1)%Q) by (rewrite <- Qle_bool_iff; congruence). assert (~ (-(1) <= x)%Q) by (rewrite <- Qle_bool_iff; congruence). lra. }
  unfold b2z at 5 in K || idtac. destruct (out x) eqn:Eo; cbn [b2z] in *; lia.
Qed.
Theorem outlier_report l : l <> [] ->
  let out (x : Q) := negb (Qle_bool (-(1)) x && Qle_bool x 1) in
  exists lo hi r, tensor_unary_outlier (map Some l) = Ok [Num lo; Num hi; Num r] /\ range_of l lo hi /\
    (inject_Z (zlen l) * r == 100 * inject_Z (countb out l))%Q /\ (0 <= r <= 100)%Q /\
    (r == 0 <-> Forall (fun x => -(1) <= x <= 1)%Q l)%Q /\ (r == 100 <-> Forall (fun x => x < -(1) \/ 1 < x)%Q l)%Q.
Proof.
  intros Hn out. exists (qmin_list l), (qmax_list l), (inject_Z (countb out l) / inject_Z (zlen l) * 100)%Q.
  split.
  { unfold tensor_unary_outlier. rewrite all_num_some. destruct l as [|x l]; [contradiction|]. cbn [map].
    assert (O := outlier_counts (x :: l)). cbn [map] in O. rewrite O.
    unfold zlen. cbn [length]. rewrite map_length. reflexivity. }
  destruct (min_max_extremes l Hn) as (I1 & I2 & I3).
  split; [split; [exists (qmin_list l); split; [exact I1|reflexivity]|split; [exists (qmax_list l); split; [exact I2|reflexivity]|]];
          eapply Forall_impl; [|exact I3]; intros x Hx; exact Hx|].
  assert (P := zlen_q l Hn).
  assert (C : 0 <= countb out l <= zlen l /\ (countb out l = 0 <-> Forall (fun x => -(1) <= x <= 1)%Q l) /\
              (countb out l = zlen l <-> Forall (fun x => x < -(1) \/ 1 < x)%Q l)).
  { clear. unfold zlen. induction l as [|x l (A & B & D)]; [cbn; repeat split; try lia; constructor|]. cbn [countb length].
    assert (K : (out x = true /\ (x < -(1) \/ 1 < x)%Q /\ ~ (-(1) <= x <= 1)%Q) \/
                (out x = false /\ (-(1) <= x <= 1)%Q /\ ~ (x < -(1) \/ 1 < x)%Q)).
    { unfold out. destruct (Qle_bool (-(1)) x) eqn:E1; destruct (Qle_bool x 1) eqn:E2; cbn [andb negb].
      - right. apply Qle_bool_iff in E1, E2. split; [reflexivity|]. split; [split; assumption|lra].
      - left. apply Qle_bool_iff in E1. assert (~ (x <= 1)%Q) by (rewrite <- Qle_bool_iff; congruence). split; [reflexivity|]. split; [lra|lra].
      - left. apply Qle_bool_iff in E2. assert (~ (-(1) <= x)%Q) by (rewrite <- Qle_bool_iff; congruence). split; [reflexivity|]. split; [lra|lra].
      - left. assert (~ (x <= 1)%Q) by (rewrite <- Qle_bool_iff; congruence). split; [reflexivity|]. split; [lra|lra]. }
    rewrite !Forall_cons_iff. destruct K as [(-> & K1 & K2)|(-> & K1 & K2)]; rewrite <- B, <- D; split; [lia| |lia|];
      split; split; intros H; try (match type of H with _ /\ _ => destruct H as [H1 H2] end); first [exfalso; tauto | exfalso; lia | split; [assumption|lia] | lia]. }
  generalize dependent (countb out l). intros k (A & B & D).
  assert (Hk : (0 <= inject_Z k <= inject_Z (zlen l))%Q).
  { change 0%Q with (inject_Z 0). rewrite <- !Zle_Qle. exact A. }
  split; [field; lra|].
  assert (Er : (inject_Z k / inject_Z (zlen l) * 100 * inject_Z (zlen l) == 100 * inject_Z k)%Q) by (field; lra).
  rewrite <- B, <- D. clear B D.
  assert (K0 : k = 0 <-> (inject_Z k == 0)%Q) by (change 0%Q with (inject_Z 0); symmetry; apply inject_Z_injective).
  assert (K1 : k = zlen l <-> (inject_Z k == inject_Z (zlen l))%Q) by (symmetry; apply inject_Z_injective).
  rewrite K0, K1. clear K0 K1.
  generalize dependent (inject_Z k / inject_Z (zlen l) * 100)%Q. generalize dependent (inject_Z k). generalize dependent (inject_Z (zlen l)).
  intros n Pn c Hc r Er. split; [split; nra|]. split; split; intros H; try (rewrite H in Er); nra.
Qed.
