(** Proofs for C70. *)
From Coq Require Import String.
Require Import Verif.BaseLemmas Verif.GenModel Verif.NameSpec Verif.NewSpec Verif.UtilsModel Verif.LinearModel Verif.ConvModel Verif.HubModel
  Verif.BinConvModel Verif.NewModel Verif.NameProof Verif.MguModel.
Open Scope string_scope. Open Scope list_scope. Open Scope Z_scope.

Lemma mode_named : forall s m, mode_parse s = Ok m <-> names_mode s m.
Proof.
  intros s m. destruct (mode_names s) as (U & B & N). unfold names_mode. split.
  - intros E. destruct (named_dec s ["unipolar"] ltac:(names)) as [H | H].
    + rewrite (U H) in E. injection E as <-. auto.
    + destruct (named_dec s ["bipolar"] ltac:(names)) as [K | K].
      * rewrite (B K) in E. injection E as <-. auto.
      * rewrite N in E; [discriminate|]. rewrite named_in in * by names. cbn in *. tauto.
  - intros [[-> H] | [-> H]]; auto.
Qed.
Lemma mode_err : forall s e, mode_parse s = Err e -> e = AssertionError.
Proof.
  intros s e E. destruct (mode_names s) as (U & B & N).
  destruct (named_dec s ["unipolar"; "bipolar"] ltac:(names)) as [H | H].
  - rewrite named_in in H by names. cbn in H. destruct H as [H | [H | []]].
    + rewrite U in E; [discriminate|]. rewrite named_in by names. cbn. auto.
    + rewrite B in E; [discriminate|]. rewrite named_in by names. cbn. auto.
  - rewrite (N H) in E. congruence.
Qed.
Lemma rounding_ok : forall s r, rounding_parse s = Ok r <-> names_rounding s r.
Proof.
  intros s r. rewrite rounding_named. unfold names_rounding. destruct r; cbn [rounding_name]; intuition discriminate.
Qed.
Lemma rng_err : forall ext name w d e, rng_new ext name w d = Err e -> e = AssertionError.
Proof.
  intros ext name w d e E. destruct (rng_outcomes ext name w d) as (A & B & C & D & F & N).
  destruct (named_dec name ["sobol"; "race"; "lfsr"; "sys"; "rc"; "tc"; "race10"; "tc10"] ltac:(names)) as [H | H]; [|rewrite (N H) in E; congruence].
  rewrite named_in in H, A, B, C, D, F by names. cbn [In] in *.
  destruct H as [H | [H | [H | [H | [H | [H | [H | [H | []]]]]]]]]; rewrite <- H in *;
    first [rewrite A in E by tauto; discriminate | rewrite B in E by tauto; discriminate | rewrite C in E by tauto; discriminate
          | rewrite D in E by tauto; discriminate | rewrite F in E by tauto; discriminate].
Qed.

(** ** Adder, sigmoid, metrics *)
Lemma fsuadd_outcomes : forall name scale depth entry,
  (forall c, fsuadd_new name scale depth entry = Ok c <->
     names_mode name (fa_mode c) /\ fa_scale c = scale /\ fa_depth c = depth /\ fa_entry c = entry) /\
  (~ named name ["unipolar"; "bipolar"] -> fsuadd_new name scale depth entry = Err AssertionError).
Proof.
  intros name scale depth entry. split.
  - intros c. unfold fsuadd_new. destruct (mode_parse name) as [m | e] eqn:E; cbn [bind].
    + apply mode_named in E. split.
      * intros F. injection F as <-. cbn. auto.
      * intros (M & <- & <- & <-). f_equal. apply mode_named in E, M. rewrite E in M. injection M as ->. destruct c; reflexivity.
    + split; [discriminate|]. intros (M & _). apply mode_named in M. congruence.
  - intros N. unfold fsuadd_new. rewrite (proj2 (proj2 (mode_names name)) N). reflexivity.
Qed.
Lemma hardsigmoid_outcomes : forall name depth,
  (forall c, fsuhardsigmoid_new name depth = Ok c <->
     names_mode name (fa_mode c) /\ fa_scale c = Some 2%Q /\ fa_depth c = depth /\ fa_entry c = None) /\
  (~ named name ["unipolar"; "bipolar"] -> fsuhardsigmoid_new name depth = Err AssertionError).
Proof.
  intros name depth. destruct (fsuadd_outcomes name (Some 2%Q) depth None) as [A B]. split.
  - intros c. rewrite <- A. unfold fsuhardsigmoid_new, fsuadd_new. destruct (mode_parse name); reflexivity.
  - intros N. rewrite <- (B N). unfold fsuhardsigmoid_new, fsuadd_new. destruct (mode_parse name); reflexivity.
Qed.

(** ** Multiplier *)
Lemma fsumul_outcomes : forall ext prob w name (static : bool) rng_name d,
  let r := fsumul_new ext prob w name static rng_name d in
  (forall c, r = Ok c <-> exists m rng, names_mode name m /\ rng_new ext rng_name w d = Ok rng /\
     ((static = false /\ c = MulStream m w rng) \/ (static = true /\ exists p, prob = Some p /\ c = MulStatic m (bingen m w p) rng))) /\
  (forall e, r = Err e -> e = AssertionError).
Proof.
  intros ext prob w name static rng_name d r. unfold r, fsumul_new.
  destruct (mode_parse name) as [m | e0] eqn:M; cbn [bind].
  2: { split.
    - intros c. split; [discriminate|]. intros (m & rng & A & _). apply mode_named in A. congruence.
    - intros e E. injection E as <-. exact (mode_err _ _ M). }
  destruct (rng_new ext rng_name w d) as [rng | e0] eqn:R; cbn [bind].
  2: { split.
    - intros c. split; [discriminate|]. intros (m' & rng & _ & A & _). congruence.
    - intros e E. injection E as <-. exact (rng_err _ _ _ _ _ R). }
  apply mode_named in M. split.
  - intros c. split.
    + intros E. exists m, rng. split; [assumption|]. split; [reflexivity|]. destruct static.
      * right. split; [reflexivity|]. destruct prob as [p|]; [|discriminate]. exists p. split; congruence.
      * left. split; congruence.
    + intros (m' & rng' & M' & R' & C). injection R' as <-.
      assert (m' = m) as -> by (apply mode_named in M, M'; congruence).
      destruct C as [[-> ->] | [-> (p & -> & ->)]]; reflexivity.
  - intros e E. destruct static; [destruct prob|]; congruence.
Qed.

(** ** Dividers and square roots *)
Lemma cordiv_outcomes : forall ext entry rng_name d,
  let r := cordiv_new ext entry rng_name d in
  (forall n rng, r = Ok (n, rng) <->
     exists k : nat, 2 ^ Z.of_nat k <= entry < 2 ^ (Z.of_nat k + 1) /\ Z.of_nat n = entry /\ rng_new ext rng_name k d = Ok rng) /\
  (r = Err ValueError <-> entry <= 0) /\ (forall e, r = Err e -> e = ValueError \/ e = AssertionError).
Proof.
  intros ext entry rng_name d r. unfold r, cordiv_new. destruct (Z.leb_spec entry 0) as [H | H].
  - split; [|split].
    + intros n rng. split; [discriminate|]. intros (k & B & _). assert (0 < 2 ^ Z.of_nat k) by (apply Z.pow_pos_nonneg; lia). lia.
    + split; [auto|reflexivity].
    + intros e E. injection E as <-. auto.
  - pose proof (Z.log2_spec entry H) as L. pose proof (Z.log2_nonneg entry) as G.
    split; [|split].
    + intros n rng. split.
      * intros E. destruct (rng_new ext rng_name (Z.to_nat (Z.log2 entry)) d) as [g | e] eqn:R; [|discriminate]. cbn [bind] in E.
        injection E as <- <-. exists (Z.to_nat (Z.log2 entry)). rewrite Z2Nat.id by assumption.
        replace (Z.log2 entry + 1) with (Z.succ (Z.log2 entry)) by lia. split; [exact L|]. split; [lia|assumption].
      * intros (k & B & N & R). assert (Z.log2 entry = Z.of_nat k) as ->.
        { apply Z.log2_unique; [lia|]. replace (Z.succ (Z.of_nat k)) with (Z.of_nat k + 1) by lia. exact B. }
        rewrite Nat2Z.id, R. cbn [bind]. f_equal. f_equal. lia.
    + split; [|lia]. intros E. destruct (rng_new ext rng_name (Z.to_nat (Z.log2 entry)) d) as [g | e] eqn:R; [discriminate|].
      cbn [bind] in E. apply rng_err in R. congruence.
    + intros e E. destruct (rng_new ext rng_name (Z.to_nat (Z.log2 entry)) d) as [g | e'] eqn:R; [discriminate|].
      cbn [bind] in E. injection E as <-. right. exact (rng_err _ _ _ _ _ R).
Qed.
Lemma fsudiv_outcomes : forall ext sa ss entry name rng_name d,
  let r := fsudiv_new ext sa ss entry name rng_name d in
  (forall c, r = Ok c <-> names_mode name (fd_mode c) /\ fd_depth_sa c = (sa - 1)%nat /\ fd_depth_ss c = ss /\
     cordiv_new ext entry rng_name d = Ok (fd_entry c, fd_rng c)) /\
  (r = Err ValueError <-> named name ["unipolar"; "bipolar"] /\ entry <= 0) /\
  (forall e, r = Err e -> e = ValueError \/ e = AssertionError).
Proof.
  intros ext sa ss entry name rng_name d r. unfold r, fsudiv_new.
  destruct (cordiv_outcomes ext entry rng_name d) as (_ & CV & CE).
  destruct (mode_parse name) as [m | e0] eqn:M; cbn [bind].
  - assert (named name ["unipolar"; "bipolar"]) as NM.
    { apply mode_named in M. destruct M as [[_ M] | [_ M]]; [apply (named_incl _ ["unipolar"])|apply (named_incl _ ["bipolar"])]; try assumption;
      intros x [<- | []]; cbn; auto. }
    destruct (cordiv_new ext entry rng_name d) as [[n g] | e0] eqn:C; cbn [bind fst snd].
    + split; [|split].
      * intros c. apply mode_named in M. split.
        -- intros E. injection E as <-. cbn. auto.
        -- intros (M' & <- & <- & K). injection K as -> ->. f_equal. assert (fd_mode c = m) as <- by (apply mode_named in M, M'; congruence).
           destruct c; reflexivity.
      * split; [discriminate|]. intros (_ & H). apply CV in H. discriminate.
      * intros e E. discriminate.
    + split; [|split].
      * intros c. split; [discriminate|]. intros (_ & _ & _ & K). discriminate.
      * rewrite <- CV. split; [intros E; split; [exact NM|congruence]|intros [_ E]; congruence].
      * intros e E. apply CE. congruence.
  - assert (~ named name ["unipolar"; "bipolar"]) as NM.
    { intros H. destruct (mode_names name) as (U & B & _). rewrite named_in in H, U, B by names. cbn in *.
      destruct H as [H | [H | []]]; [rewrite U in M by auto|rewrite B in M by auto]; discriminate. }
    pose proof (mode_err _ _ M) as ->. split; [|split].
    + intros c. split; [discriminate|]. intros (A & _). apply mode_named in A. congruence.
    + split; [discriminate|tauto].
    + intros e E. injection E as <-. auto.
Qed.
Lemma log2_check_spec : forall n,
  (log2_check n = Ok tt <-> pow2 n) /\ (log2_check n = Err ValueError <-> n <= 0) /\
  (log2_check n = Err AssertionError <-> 0 < n /\ ~ pow2 n) /\ (forall e, log2_check n = Err e -> e = ValueError \/ e = AssertionError).
Proof.
  intros n. unfold log2_check. destruct (Z.leb_spec n 0) as [H | H].
  - assert (~ pow2 n). { intros (k & ->). assert (0 < 2 ^ Z.of_nat k) by (apply Z.pow_pos_nonneg; lia). lia. }
    split; [|split; [|split]].
    + split; [discriminate|tauto].
    + tauto.
    + split; [discriminate|lia].
    + intros e E. injection E as <-. auto.
  - assert (pow2 n <-> Z.log2_up n = Z.log2 n) as P.
    { split.
      - intros (k & ->). rewrite Z.log2_pow2, Z.log2_up_pow2 by lia. reflexivity.
      - intros E. exists (Z.to_nat (Z.log2 n)). pose proof (Z.log2_nonneg n). rewrite Z2Nat.id by assumption.
        pose proof (Z.log2_spec n H) as [A _]. destruct (Z.eq_dec n 1) as [-> | D]; [reflexivity|].
        assert (1 < n) as K by lia. pose proof (Z.log2_up_spec n K) as [_ B]. rewrite E in B. lia. }
    destruct (Z.eqb_spec (Z.log2_up n) (Z.log2 n)) as [E | E]; rewrite <- P in E; (split; [|split; [|split]]).
    all: try (intros e F; first [discriminate F | injection F as <-]; auto).
    all: try (split; [discriminate|lia]).
    all: try tauto.
    all: try (split; [discriminate|tauto]).
Qed.
Lemma sqrt_outcomes : forall ext name (jk emit : bool) kn sr rng_name,
  let r := fsusqrt_new ext name jk emit kn sr rng_name in
  (forall c, r = Ok c <-> pow2 kn /\ exists m (k : nat), names_mode name m /\ sr = 2 ^ Z.of_nat k /\
     ((emit = true /\ exists rng, rng_new ext rng_name k 1 = Ok rng /\ c = SqrtEmit m (2 ^ k) rng) \/
      (emit = false /\ jk = true /\ c = SqrtJk m) \/
      (emit = false /\ jk = false /\ exists rng, rng_new ext rng_name 2 4 = Ok rng /\ c = SqrtCordiv m rng))) /\
  (r = Err ValueError <-> named name ["unipolar"; "bipolar"] /\ (kn <= 0 \/ pow2 kn /\ sr <= 0)) /\
  (forall e, r = Err e -> e = ValueError \/ e = AssertionError).
Proof.
  intros ext name jk emit kn sr rng_name r. unfold r, fsusqrt_new.
  destruct (mode_parse name) as [m | e0] eqn:M; cbn [bind].
  2: { assert (~ named name ["unipolar"; "bipolar"]) as NM.
    { intros H. destruct (mode_names name) as (U & B & _). rewrite named_in in H, U, B by names. cbn in *.
      destruct H as [H | [H | []]]; [rewrite U in M by auto|rewrite B in M by auto]; discriminate. }
    pose proof (mode_err _ _ M) as ->. split; [|split].
    - intros c. split; [discriminate|]. intros (_ & m & k & A & _). apply mode_named in A. congruence.
    - split; [discriminate|tauto].
    - intros e E. injection E as <-. auto. }
  assert (named name ["unipolar"; "bipolar"]) as NM.
  { pose proof M as M'. apply mode_named in M'. destruct M' as [[_ M'] | [_ M']]; [apply (named_incl _ ["unipolar"])|apply (named_incl _ ["bipolar"])]; try assumption;
      intros x [<- | []]; cbn; auto. }
  destruct (log2_check_spec kn) as (KO & KV & KA & KE).
  destruct (log2_check kn) as [[] | e0] eqn:CK; cbn [bind].
  2: { split; [|split].
    - intros c. split; [discriminate|]. intros (P & _). apply KO in P. discriminate.
    - rewrite <- KV. split; [intros E; split; [exact NM|left; congruence]|]. intros (_ & [H | [P _]]); [congruence|]. apply KO in P. discriminate.
    - intros e E. apply KE. congruence. }
  assert (pow2 kn) as PK by (apply KO; reflexivity).
  assert (~ kn <= 0) as NK by (intros H; apply KV in H; discriminate).
  destruct (log2_check_spec sr) as (SO & SV & SA & SE).
  destruct (log2_check sr) as [[] | e0] eqn:CS; cbn [bind].
  2: { split; [|split].
    - intros c. split; [discriminate|]. intros (_ & m' & k & _ & S & _). assert (pow2 sr) as P by (exists k; exact S). apply SO in P. discriminate.
    - rewrite <- SV. split; [intros E; split; [exact NM|right; split; [exact PK|congruence]]|intros (_ & [H | [_ E]]); [tauto|congruence]].
    - intros e E. apply SE. congruence. }
  assert (pow2 sr) as (k & SK) by (apply SO; reflexivity).
  assert (~ sr <= 0) as NS by (intros H; apply SV in H; discriminate).
  assert (Z.log2 sr = Z.of_nat k) as LK by (rewrite SK; apply Z.log2_pow2; lia). rewrite LK, Nat2Z.id.
  assert (Z.to_nat sr = (2 ^ k)%nat) as TK. { rewrite SK. rewrite <- (Nat2Z.id (2 ^ k)). f_equal. rewrite Nat2Z.inj_pow. reflexivity. }
  assert (forall k' : nat, sr = 2 ^ Z.of_nat k' -> k' = k) as UK.
  { intros k' E. rewrite SK in E. apply Z.pow_inj_r in E; lia. }
  assert (forall m', names_mode name m' -> m' = m) as UM by (intros m' A; apply mode_named in A; congruence).
  apply mode_named in M.
  change (cordiv_new ext 4 rng_name 4) with (bind (rng_new ext rng_name 2 4) (fun rng => Ok (4%nat, rng))).
  split; [|split].
  - intros c. split.
    + intros E. split; [assumption|]. exists m, k. split; [assumption|]. split; [assumption|]. destruct emit; [left|right; destruct jk; [left|right]].
      * destruct (rng_new ext rng_name k 1) as [g | e] eqn:R; [|discriminate]. cbn [bind] in E. injection E as <-.
        split; [reflexivity|]. exists g. rewrite TK. auto.
      * injection E as <-. auto.
      * destruct (rng_new ext rng_name 2 4) as [g | e] eqn:R; [|discriminate]. cbn [bind snd] in E. injection E as <-. eauto.
    + intros (_ & m' & k' & A & B & C). rewrite (UM m' A) in C. rewrite (UK k' B) in C.
      destruct C as [(-> & g & -> & ->) | [(-> & -> & ->) | (-> & -> & g & -> & ->)]]; cbn [bind snd]; try rewrite TK; reflexivity.
  - split; [|tauto]. intros E. exfalso. destruct emit; [|destruct jk; [discriminate|]].
    + destruct (rng_new ext rng_name k 1) as [g | e] eqn:R; [discriminate|]. cbn [bind] in E. apply rng_err in R. congruence.
    + destruct (rng_new ext rng_name 2 4) as [g | e] eqn:R; [discriminate|]. cbn [bind] in E. apply rng_err in R. congruence.
  - intros e E. right. destruct emit; [|destruct jk; [discriminate|]].
    + destruct (rng_new ext rng_name k 1) as [g | e'] eqn:R; [discriminate|]. cbn [bind] in E. apply rng_err in R. congruence.
    + destruct (rng_new ext rng_name 2 4) as [g | e'] eqn:R; [discriminate|]. cbn [bind] in E. apply rng_err in R. congruence.
Qed.

(** ** Binary-interfaced layers *)
Lemma shape2_mat : forall (A : Type) r c (m : list (list A)), shape2 r c m = true <-> mat r c m.
Proof.
  intros A r c m. unfold shape2, mat, vec. rewrite andb_true_iff, Nat.eqb_eq, forallb_forall, Forall_forall.
  split; intros [H K]; (split; [exact H|]); intros x I; apply K in I; now apply Nat.eqb_eq.
Qed.
Lemma shape4_kern : forall (A : Type) o c h w (k : list (list (list (list A)))), shape4 o c h w k = true <-> kern o c h w k.
Proof.
  intros A o c h w k. unfold shape4, kern. rewrite andb_true_iff, Nat.eqb_eq, forallb_forall, Forall_forall.
  split; intros [H K]; (split; [exact H|]); intros x I; apply K in I.
  - apply andb_true_iff in I. destruct I as [I J]. apply Nat.eqb_eq in I. split; [exact I|].
    rewrite forallb_forall in J. apply Forall_forall. intros y Y. apply shape2_mat, J, Y.
  - destruct I as [I J]. rewrite I, Nat.eqb_refl. cbn [andb]. apply forallb_forall. intros y Y.
    rewrite Forall_forall in J. apply shape2_mat, J, Y.
Qed.
Section Params.
  Variable A : Type.
  Variables (test : A -> bool) (ok : A -> Prop) (no : nat).
  Hypothesis T : forall a, test a = true <-> ok a.
  Lemma params_ok : forall (bias : bool) we be wi bi,
    let r := bind (match we with None => Ok wi | Some a => if test a then Ok a else Err AssertionError end) (fun w =>
      if bias then match be with None => Ok (w, Some bi) | Some b => if (List.length b =? no)%nat then Ok (w, Some b) else Err AssertionError end
      else Ok (w, None)) in
    (forall w b, r = Ok (w, b) <-> replaced ok we wi w /\ replaced_if bias (@vec Q no) be bi b) /\
    (forall e, r = Err e -> e = AssertionError).
  Proof.
    intros bias we be wi bi r. unfold r, replaced, replaced_if, replaced, vec. split.
    - intros w b. split.
      + intros E. destruct we as [a|]; [destruct (test a) eqn:TA; [|discriminate]|]; cbn [bind] in E; (destruct bias; [destruct be as [v|];
          [destruct (Nat.eqb_spec (List.length v) no) as [L|L]; [|discriminate]|]|]); injection E as <- <-; try apply T in TA;
          (split; [tauto|]); eauto 7.
      + intros (W & B).
        assert (match we with None => Ok wi | Some a => if test a then Ok a else Err AssertionError end = Ok w) as ->.
        { destruct W as [[-> ->] | [-> O]]; [reflexivity|]. apply T in O. rewrite O. reflexivity. }
        cbn [bind]. destruct B as [[-> ->] | (-> & v & -> & [[-> ->] | [-> L]])]; try reflexivity. rewrite L, Nat.eqb_refl. reflexivity.
    - intros e E. destruct we as [a|]; [destruct (test a)|]; cbn [bind] in E; try congruence;
        (destruct bias; [destruct be as [v|]; [destruct (List.length v =? no)%nat|]|]); congruence.
  Qed.
End Params.
Lemma lin_params_ok : forall ni no (bias : bool) we be wi bi,
  (forall w b, lin_params ni no bias we be wi bi = Ok (w, b) <-> replaced (mat no ni) we wi w /\ replaced_if bias (vec no) be bi b) /\
  (forall e, lin_params ni no bias we be wi bi = Err e -> e = AssertionError).
Proof. intros ni no bias we be wi bi. exact (params_ok _ (shape2 no ni) (mat no ni) no (shape2_mat Q no ni) bias we be wi bi). Qed.
Lemma conv_params_ok : forall ci co kernel (bias : bool) we be wi bi,
  (forall w b, conv_params ci co kernel bias we be wi bi = Ok (w, b) <->
     replaced (kern co ci (fst kernel) (snd kernel)) we wi w /\ replaced_if bias (vec co) be bi b) /\
  (forall e, conv_params ci co kernel bias we be wi bi = Err e -> e = AssertionError).
Proof. intros ci co kernel bias we be wi bi. exact (params_ok _ _ _ co (shape4_kern Q co ci (fst kernel) (snd kernel)) bias we be wi bi). Qed.

Lemma temporal_rng_named : forall s, temporal_rng s = true <-> named s ["race"; "tc"; "race10"; "tc10"].
Proof.
  intros s. unfold temporal_rng. destruct (rng_parse s) as [k | e] eqn:K; [exact (tc_names s k K)|].
  split; [discriminate|]. intros H. exfalso. destruct (rng_names s) as (_ & A & B & _).
  rewrite named_in in H, A, B by names. cbn in *.
  destruct H as [H | [H | [H | [H | []]]]]; first [rewrite A in K by tauto; discriminate | rewrite B in K by tauto; discriminate].
Qed.
Lemma quantile_ok : forall q, (qgt q 0 && Qle_bool q 1) = true <-> (0 < q <= 1)%Q.
Proof.
  intros q. unfold qgt. rewrite andb_true_iff, negb_true_iff. rewrite Qle_bool_iff.
  split; intros [A B]; (split; [|exact B]).
  - apply Qnot_le_lt. intros C. apply Qle_bool_iff in C. congruence.
  - apply not_true_iff_false. rewrite Qle_bool_iff. apply Qlt_not_le. exact A.
Qed.
Lemma hub_pre : forall rngi rngw qi qw rnd signmag,
  let r := if temporal_rng rngi && temporal_rng rngw then Err AssertionError else hub_checks qi qw rnd signmag in
  (forall x, r = Ok x <-> hub_config rngi rngw qi qw rnd signmag /\ names_rounding rnd x) /\ (forall e, r = Err e -> e = AssertionError).
Proof.
  intros rngi rngw qi qw rnd signmag r. unfold r, hub_checks.
  assert (hub_config rngi rngw qi qw rnd signmag <-> ~ (temporal_rng rngi = true /\ temporal_rng rngw = true) /\
    (qgt qi 0 && Qle_bool qi 1) = true /\ (qgt qw 0 && Qle_bool qw 1) = true /\ named rnd ["round"; "ceil"; "floor"] /\ signmag = true) as HC.
  { unfold hub_config. rewrite !temporal_rng_named, !quantile_ok. reflexivity. }
  assert (forall x, names_rounding rnd x -> named rnd ["round"; "ceil"; "floor"]) as NR.
  { intros x [[_ H] | [[_ H] | [_ H]]]; refine (named_incl _ _ _ _ H); intros y [<- | []]; cbn; auto. }
  split.
  - intros x. rewrite HC. clear HC. destruct (temporal_rng rngi), (temporal_rng rngw); cbn [andb]; try (split; [discriminate|intuition discriminate]);
      (destruct (qgt qi 0 && Qle_bool qi 1) eqn:QI; cbn [negb]; [|split; [discriminate|intuition discriminate]];
       destruct (qgt qw 0 && Qle_bool qw 1) eqn:QW; cbn [negb]; [|split; [discriminate|intuition discriminate]];
       destruct (rounding_parse rnd) as [y | e] eqn:R; cbn [bind];
       [|split; [discriminate|intros [_ N]; apply rounding_ok in N; congruence]];
       destruct signmag; [|split; [discriminate|intuition discriminate]];
       apply rounding_ok in R; split;
       [intros E; injection E as <-; pose proof (NR y R); intuition discriminate
       |intros [_ N]; f_equal; apply rounding_ok in N, R; congruence]).
  - intros e E. destruct (temporal_rng rngi && temporal_rng rngw); [congruence|].
    destruct (negb (qgt qi 0 && Qle_bool qi 1)); [congruence|]. destruct (negb (qgt qw 0 && Qle_bool qw 1)); [congruence|].
    destruct (rounding_parse rnd) as [y | e'] eqn:R; cbn [bind] in E; [destruct signmag; congruence|].
    injection E as <-. destruct (rounding_names rnd) as (A & B & C & N).
    destruct (named_dec rnd ["round"; "ceil"; "floor"] ltac:(names)) as [H | H]; [|rewrite (N H) in R; congruence].
    rewrite named_in in H, A, B, C by names. cbn [In] in *. exfalso.
    destruct H as [H | [H | [H | []]]]; first [rewrite A in R by tauto; discriminate | rewrite B in R by tauto; discriminate | rewrite C in R by tauto; discriminate].
Qed.
Lemma bind_if : forall (A B : Type) (b : bool) e (x : result A) (f : A -> result B),
  (if b then Err e else bind x f) = bind (if b then Err e else x) f.
Proof. intros A B b e x f. destruct b; reflexivity. Qed.

Lemma hublin_outcomes : forall exti extw ni no (bias : bool) we be wi bi widthi widthw rngi rngw qi qw cycle rnd signmag,
  let r := hublin_new exti extw ni no bias we be wi bi widthi widthw rngi rngw qi qw cycle rnd signmag in
  (forall l, r = Ok l <-> cycle <> None /\ hub_config rngi rngw qi qw rnd signmag /\ names_rounding rnd (hl_round l) /\
     replaced (mat no ni) we wi (hl_weight l) /\ replaced_if bias (vec no) be bi (hl_bias l) /\
     hub_new exti extw widthi widthw rngi rngw cycle = Ok (hl_cfg l) /\
     hl_widthi l = widthi /\ hl_widthw l = widthw /\ hl_qi l = qi /\ hl_qw l = qw) /\
  (cycle = None -> r = Err TypeError) /\
  (cycle <> None -> ~ hub_config rngi rngw qi qw rnd signmag -> r = Err AssertionError) /\
  (cycle <> None -> hub_config rngi rngw qi qw rnd signmag ->
     (forall w b, ~ (replaced (mat no ni) we wi w /\ replaced_if bias (vec no) be bi b)) -> r = Err AssertionError).
Proof.
  intros exti extw ni no bias we be wi bi widthi widthw rngi rngw qi qw cycle rnd signmag r. unfold r, hublin_new.
  destruct cycle as [cyc|].
  2: { split; [|repeat split; congruence]. intros l. split; [discriminate|]. intros (N & _). congruence. }
  rewrite bind_if. destruct (hub_pre rngi rngw qi qw rnd signmag) as [P PE].
  set (pre := if temporal_rng rngi && temporal_rng rngw then Err AssertionError else hub_checks qi qw rnd signmag) in *. clearbody pre.
  destruct (lin_params_ok ni no bias we be wi bi) as [L LE].
  assert (hub_config rngi rngw qi qw rnd signmag -> exists x, names_rounding rnd x) as RX.
  { intros (_ & _ & _ & N & _). rewrite named_in in N by names. unfold names_rounding. cbn [In] in N.
    destruct N as [N | [N | [N | []]]]; [exists RRound|exists RCeil|exists RFloor]; rewrite !named_in by names; cbn [In]; tauto. }
  destruct pre as [x | e]; cbn [bind].
  2: { pose proof (PE e eq_refl) as ->. split; [|split; [discriminate|split; [reflexivity|]]].
    - intros l. split; [discriminate|]. intros (_ & H & N & _). assert (Err AssertionError = Ok (hl_round l) :> result rounding) by (apply P; auto). discriminate.
    - reflexivity. }
  pose proof (proj1 (P x) eq_refl) as [HC NX].
  assert (forall y, names_rounding rnd y -> y = x) as UX by (intros y N; assert (Ok x = Ok y :> result rounding) by (apply P; auto); congruence).
  destruct (lin_params ni no bias we be wi bi) as [[w b] | e]; cbn [bind].
  2: { pose proof (LE e eq_refl) as ->. split; [|split; [discriminate|split; [tauto|reflexivity]]].
    intros l. split; [discriminate|]. intros (_ & _ & _ & W & B & _).
    assert (Err AssertionError = Ok (hl_weight l, hl_bias l) :> result (list (list Q) * option (list Q))) by (apply L; auto). discriminate. }
  pose proof (proj1 (L w b) eq_refl) as [W B].
  split; [|split; [discriminate|split; [tauto|]]].
  - intros l. split.
    + intros E. destruct (hub_new exti extw widthi widthw rngi rngw (Some cyc)) as [c | e]; [|discriminate]. cbn [bind] in E. injection E as <-.
      cbn. repeat (split; [solve [assumption | reflexivity | discriminate]|]). reflexivity.
    + intros (_ & _ & N & W' & B' & -> & <- & <- & <- & <-). cbn [bind fst snd].
      assert (Ok (w, b) = Ok (hl_weight l, hl_bias l)) as E by (apply L; auto). injection E as -> ->.
      rewrite <- (UX _ N). destruct l; reflexivity.
  - intros _ _ N. destruct (N w b (conj W B)).
Qed.
Lemma hublin_forward_eq : forall l input,
  hublin_forward l input = bind (rshift_offset (concat input) (concat (hl_weight l)) (Z.of_nat (hl_widthi l) - 1) (Z.of_nat (hl_widthw l) - 1)
    (hl_round l) (hl_qi l) (hl_qw l)) (fun o => Ok (option_map (fun s => hub_forward (hl_cfg l) (fst (fst s)) (snd (fst s)) (snd s) input (hl_weight l) (hl_bias l)) o)).
Proof. intros l input. unfold hublin_forward. destruct rshift_offset as [[[[a b] c]|]|]; reflexivity. Qed.

Lemma fxplin_outcomes : forall ni no (bias : bool) we be wi bi widthi widthw qi qw rnd,
  let r := fxplin_new ni no bias we be wi bi widthi widthw qi qw rnd in
  (forall l, r = Ok l <-> replaced (mat no ni) we wi (fl_weight l) /\ replaced_if bias (vec no) be bi (fl_bias l) /\
     (forall x, fl_round l = Some x <-> names_rounding rnd x) /\
     fl_widthi l = widthi /\ fl_widthw l = widthw /\ fl_qi l = qi /\ fl_qw l = qw) /\
  (forall e, r = Err e -> e = AssertionError).
Proof.
  intros ni no bias we be wi bi widthi widthw qi qw rnd r. unfold r, fxplin_new.
  destruct (lin_params_ok ni no bias we be wi bi) as [L LE].
  destruct (lin_params ni no bias we be wi bi) as [[w b] | e]; cbn [bind fst snd].
  - pose proof (proj1 (L w b) eq_refl) as [W B].
    assert (forall x, match rounding_parse rnd with Ok r => Some r | Err _ => None end = Some x <-> names_rounding rnd x) as RX.
    { intros x. rewrite <- rounding_ok. destruct (rounding_parse rnd); split; congruence. }
    set (x0 := match rounding_parse rnd with Ok r => Some r | Err _ => None end) in *. clearbody x0.
    split; [|discriminate]. intros l. split.
    + intros E. injection E as <-. cbn. auto 9.
    + intros (W' & B' & R & <- & <- & <- & <-). assert (Ok (w, b) = Ok (fl_weight l, fl_bias l)) as E by (apply L; auto). injection E as -> ->.
      assert (x0 = fl_round l) as ->.
      { destruct (fl_round l) as [x|]; [apply RX, R; reflexivity|]. destruct x0 as [x|]; [|reflexivity].
        assert (None = Some x) by (apply R, RX; reflexivity). discriminate. }
      destruct l; reflexivity.
  - pose proof (LE e eq_refl) as ->. split; [|congruence]. intros l. split; [discriminate|]. intros (W & B & _).
    assert (Err AssertionError = Ok (fl_weight l, fl_bias l) :> result (list (list Q) * option (list Q))) by (apply L; auto). discriminate.
Qed.
Lemma tlut_err : forall temporal formati formatw widthi widthw widtht qi qw cycle rnd signmag e,
  tlut_new temporal formati formatw widthi widthw widtht qi qw cycle rnd signmag = Err e -> e = AssertionError.
Proof.
  intros temporal formati formatw widthi widthw widtht qi qw cycle rnd signmag e E.
  destruct (tlut_accepts temporal formati formatw widthi widthw widtht qi qw cycle rnd signmag) as [A N].
  set (acc := _ /\ _) in A, N.
  assert (~ acc) as H by (intros H; destruct (A H) as (c & C); congruence). rewrite (N H) in E. congruence.
Qed.
Lemma tlutlin_outcomes : forall ni no (bias : bool) we be wi bi temporal formati formatw widthi widthw widtht qi qw cycle rnd signmag,
  let r := tlutlin_new ni no bias we be wi bi temporal formati formatw widthi widthw widtht qi qw cycle rnd signmag in
  (forall c w b, r = Ok (c, (w, b)) <-> tlut_new temporal formati formatw widthi widthw widtht qi qw cycle rnd signmag = Ok c /\
     replaced (mat no ni) we wi w /\ replaced_if bias (vec no) be bi b) /\
  (forall e, r = Err e -> e = AssertionError).
Proof.
  intros ni no bias we be wi bi temporal formati formatw widthi widthw widtht qi qw cycle rnd signmag r. unfold r, tlutlin_new.
  destruct (lin_params_ok ni no bias we be wi bi) as [L LE].
  destruct (tlut_new temporal formati formatw widthi widthw widtht qi qw cycle rnd signmag) as [c | e] eqn:T; cbn [bind].
  - split.
    + intros c' w b. rewrite <- L. destruct (lin_params ni no bias we be wi bi) as [[w' b'] | e]; cbn [bind]; split; intros E.
      * injection E as -> -> ->. auto.
      * destruct E as [E F]. congruence.
      * discriminate.
      * destruct E as [_ F]. discriminate.
    + intros e. destruct (lin_params ni no bias we be wi bi) as [[w' b'] | e'] eqn:P; cbn [bind]; intros E; [discriminate|]. apply LE. congruence.
  - apply tlut_err in T. subst e. split; [|congruence]. intros c w b. split; [discriminate|]. intros (E & _). discriminate.
Qed.

(** ** Convolutions *)
Lemma conv2d_base_ok : forall ci co groups pm,
  (conv2d_base ci co groups pm = Ok tt <-> torch_accepts ci co groups pm) /\
  (conv2d_base ci co groups pm = Err ValueError <-> ~ torch_accepts ci co groups pm).
Proof.
  intros ci co groups pm. unfold conv2d_base, torch_accepts.
  assert (padding_mode_known pm = true <-> In pm ["zeros"; "reflect"; "replicate"; "circular"]) as PM.
  { unfold padding_mode_known. rewrite ?orb_true_iff, ?String.eqb_eq. cbn [In]. intuition congruence. }
  destruct (Nat.eqb_spec (ci mod groups) 0) as [A|A]; destruct (Nat.eqb_spec (co mod groups) 0) as [B|B]; cbn [andb negb];
    try (split; (split; [discriminate|]); tauto); try (split; (split; [tauto || discriminate | tauto])).
  all: destruct (padding_mode_known pm); cbn [negb]; split; split; try discriminate; try tauto;
    try (intros _; intuition congruence); try (intros H; exfalso; apply H; intuition congruence).
  all: intros H; exfalso; destruct H as (_ & _ & H); apply PM in H; discriminate.
Qed.
Lemma conv2d_supported_ok : forall groups pm,
  (conv2d_supported groups pm = Ok tt <-> groups = 1%nat /\ pm = "zeros") /\
  (forall e, conv2d_supported groups pm = Err e -> e = AssertionError).
Proof.
  intros groups pm. unfold conv2d_supported. destruct (Nat.eqb_spec groups 1) as [A|A]; cbn [negb].
  - destruct (String.eqb_spec pm "zeros") as [B|B]; cbn [negb]; (split; [split; [auto || discriminate|tauto || congruence]|congruence]).
  - split; [split; [discriminate|tauto]|congruence].
Qed.
Lemma bind_ok : forall (A B : Type) (x : result A) (f : A -> result B) b, bind x f = Ok b <-> exists a, x = Ok a /\ f a = Ok b.
Proof.
  intros A B x f b. destruct x as [a | e]; cbn [bind]; split.
  - eauto.
  - intros (a' & E & F). congruence.
  - discriminate.
  - intros (a' & E & _). discriminate.
Qed.
Lemma bind_err : forall (A B : Type) (x : result A) (f : A -> result B) e, bind x f = Err e -> x = Err e \/ exists a, x = Ok a /\ f a = Err e.
Proof. intros A B x f e. destruct x as [a | e']; cbn [bind]; [eauto|]. intros E. left. congruence. Qed.
Lemma base_cases : forall ci co groups pm,
  (conv2d_base ci co groups pm = Ok tt /\ torch_accepts ci co groups pm) \/
  (conv2d_base ci co groups pm = Err ValueError /\ ~ torch_accepts ci co groups pm).
Proof.
  intros ci co groups pm. destruct (conv2d_base_ok ci co groups pm) as [A B].
  destruct (conv2d_base ci co groups pm) as [[] | e] eqn:E; [left; tauto|]. right.
  assert (e = ValueError) as -> by (unfold conv2d_base in E; destruct (negb _) in E; [congruence|]; destruct (negb _) in E; congruence). tauto.
Qed.
Lemma accepts_one : forall ci co, torch_accepts ci co 1 "zeros".
Proof. intros ci co. unfold torch_accepts. rewrite !Nat.mod_1_r. cbn. auto. Qed.
Lemma fxpconv_outcomes : forall ci co kernel groups (bias : bool) pm we be wi bi rnd,
  let r := fxpconv_new ci co kernel groups bias pm we be wi bi rnd in
  (forall x w b, r = Ok (x, (w, b)) <-> groups = 1%nat /\ pm = "zeros" /\ (forall y, x = Some y <-> names_rounding rnd y) /\
     replaced (kern co ci (fst kernel) (snd kernel)) we wi w /\ replaced_if bias (vec co) be bi b) /\
  (r = Err ValueError <-> ~ torch_accepts ci co groups pm) /\ (forall e, r = Err e -> e = ValueError \/ e = AssertionError).
Proof.
  intros ci co kernel groups bias pm we be wi bi rnd r. unfold r, fxpconv_new.
  assert (forall y, match rounding_parse rnd with Ok r => Some r | Err _ => None end = Some y <-> names_rounding rnd y) as RX.
  { intros y. rewrite <- rounding_ok. destruct (rounding_parse rnd); split; congruence. }
  set (x0 := match rounding_parse rnd with Ok r => Some r | Err _ => None end) in *. clearbody x0.
  destruct (conv2d_supported_ok groups pm) as [S SE]. destruct (conv_params_ok ci co kernel bias we be wi bi) as [L LE].
  assert (forall e, bind (conv2d_supported groups pm) (fun _ => bind (conv_params ci co kernel bias we be wi bi) (fun p => Ok (x0, p))) = Err e -> e = AssertionError) as ER.
  { intros e E. apply bind_err in E. destruct E as [E | ([] & _ & E)]; [auto|]. apply bind_err in E. destruct E as [E | (p & _ & E)]; [auto|discriminate]. }
  destruct (base_cases ci co groups pm) as [[-> T] | [-> T]]; cbn [bind].
  - split; [|split].
    + intros x w b. rewrite bind_ok. split.
      * intros ([] & SO & E). apply S in SO. destruct SO as [-> ->]. apply bind_ok in E. destruct E as ([w' b'] & P & E). injection E as <- -> ->.
        apply L in P. destruct P. auto.
      * intros (-> & -> & X & W & B). exists tt. split; [apply S; auto|]. rewrite bind_ok. exists (w, b). split; [apply L; auto|].
        f_equal. f_equal. destruct x as [y|]; [apply RX, X; reflexivity|]. destruct x0 as [y|]; [|reflexivity].
        assert (None = Some y) by (apply X, RX; reflexivity). discriminate.
    + split; [intros E; apply ER in E; discriminate|tauto].
    + auto.
  - split; [|split; [tauto|intros e E; injection E as <-; auto]].
    intros x w b. split; [discriminate|]. intros (-> & -> & _). destruct T. apply accepts_one.
Qed.
Lemma tlutconv_outcomes : forall ci co kernel groups (bias : bool) pm we be wi bi temporal formati formatw widthi widthw widtht qi qw cycle rnd signmag,
  let r := tlutconv_new ci co kernel groups bias pm we be wi bi temporal formati formatw widthi widthw widtht qi qw cycle rnd signmag in
  (forall c w b, r = Ok (c, (w, b)) <-> groups = 1%nat /\ pm = "zeros" /\
     tlut_new temporal formati formatw widthi widthw widtht qi qw cycle rnd signmag = Ok c /\
     replaced (kern co ci (fst kernel) (snd kernel)) we wi w /\ replaced_if bias (vec co) be bi b) /\
  (r = Err ValueError <-> ~ torch_accepts ci co groups pm) /\ (forall e, r = Err e -> e = ValueError \/ e = AssertionError).
Proof.
  intros ci co kernel groups bias pm we be wi bi temporal formati formatw widthi widthw widtht qi qw cycle rnd signmag r. unfold r, tlutconv_new.
  set (t := tlut_new _ _ _ _ _ _ _ _ _ _ _).
  assert (forall e, t = Err e -> e = AssertionError) as TE by (unfold t; intros e; apply tlut_err). clearbody t.
  destruct (conv2d_supported_ok groups pm) as [S SE]. destruct (conv_params_ok ci co kernel bias we be wi bi) as [L LE].
  destruct (base_cases ci co groups pm) as [[-> T] | [-> T]]; cbn [bind].
  - split; [|split].
    + intros c w b. rewrite bind_ok. split.
      * intros ([] & SO & E). apply S in SO. destruct SO as [-> ->]. apply bind_ok in E. destruct E as (c' & C & E).
        apply bind_ok in E. destruct E as ([w' b'] & P & E). injection E as -> -> ->. apply L in P. destruct P. auto.
      * intros (-> & -> & C & W & B). exists tt. split; [apply S; auto|]. rewrite bind_ok. exists c. split; [exact C|].
        rewrite bind_ok. exists (w, b). split; [apply L; auto|reflexivity].
    + split; [|tauto]. intros E. exfalso. apply bind_err in E. destruct E as [E | ([] & _ & E)]; [apply SE in E; discriminate|].
      apply bind_err in E. destruct E as [E | (c & _ & E)]; [apply TE in E; discriminate|].
      apply bind_err in E. destruct E as [E | (p & _ & E)]; [apply LE in E; discriminate|discriminate].
    + intros e E. right. apply bind_err in E. destruct E as [E | ([] & _ & E)]; [auto|].
      apply bind_err in E. destruct E as [E | (c & _ & E)]; [auto|].
      apply bind_err in E. destruct E as [E | (p & _ & E)]; [auto|discriminate].
  - split; [|split; [tauto|intros e E; injection E as <-; auto]].
    intros x w b. split; [discriminate|]. intros (-> & -> & _). destruct T. apply accepts_one.
Qed.
Lemma hubconv_outcomes : forall exti extw ci co kernel groups (bias : bool) pm we be wi bi widthi widthw rngi rngw qi qw cycle rnd signmag,
  let r := hubconv_new exti extw ci co kernel groups bias pm we be wi bi widthi widthw rngi rngw qi qw cycle rnd signmag in
  (forall c x w b, r = Ok (c, x, (w, b)) <-> cycle <> None /\ hub_config rngi rngw qi qw rnd signmag /\ groups = 1%nat /\ pm = "zeros" /\
     names_rounding rnd x /\ replaced (kern co ci (fst kernel) (snd kernel)) we wi w /\ replaced_if bias (vec co) be bi b /\
     hub_new exti extw widthi widthw rngi rngw cycle = Ok c) /\
  (~ torch_accepts ci co groups pm -> r = Err ValueError) /\
  (torch_accepts ci co groups pm -> cycle = None -> r = Err TypeError) /\
  (torch_accepts ci co groups pm -> cycle <> None -> ~ (hub_config rngi rngw qi qw rnd signmag /\ groups = 1%nat /\ pm = "zeros") -> r = Err AssertionError).
Proof.
  intros exti extw ci co kernel groups bias pm we be wi bi widthi widthw rngi rngw qi qw cycle rnd signmag r. unfold r, hubconv_new.
  destruct (conv2d_supported_ok groups pm) as [S SE]. destruct (conv_params_ok ci co kernel bias we be wi bi) as [L LE].
  destruct (base_cases ci co groups pm) as [[-> T] | [-> T]]; cbn [bind].
  2: { split; [|tauto]. intros c x w b. split; [discriminate|]. intros (_ & _ & -> & -> & _). destruct T. apply accepts_one. }
  destruct cycle as [cyc|].
  2: { split; [|split; [tauto|split; [reflexivity|congruence]]]. intros c x w b. split; [discriminate|]. intros (N & _). congruence. }
  rewrite bind_if. destruct (hub_pre rngi rngw qi qw rnd signmag) as [P PE].
  set (pre := if temporal_rng rngi && temporal_rng rngw then Err AssertionError else hub_checks qi qw rnd signmag) in *. clearbody pre.
  set (h := hub_new _ _ _ _ _ _ _). clearbody h.
  split; [|split; [tauto|split; [discriminate|]]].
  - intros c x w b. rewrite bind_ok. split.
    + intros (x' & X & E). apply P in X. apply bind_ok in E. destruct E as ([] & SO & E). apply S in SO. destruct SO as [-> ->].
      apply bind_ok in E. destruct E as ([w' b'] & Q & E). apply L in Q. apply bind_ok in E. destruct E as (c' & C & E). injection E as -> -> -> ->.
      destruct X, Q. repeat (split; [solve [assumption | reflexivity | discriminate]|]). assumption.
    + intros (_ & H & -> & -> & X & W & B & C). exists x. split; [apply P; auto|]. rewrite bind_ok. exists tt. split; [apply S; auto|].
      rewrite bind_ok. exists (w, b). split; [apply L; auto|]. rewrite C. reflexivity.
  - intros _ _ N. destruct pre as [x | e]; cbn [bind]; [|rewrite (PE e eq_refl); reflexivity].
    pose proof (proj1 (P x) eq_refl) as [H _]. destruct (conv2d_supported groups pm) as [[] | e]; cbn [bind]; [|rewrite (SE e eq_refl); reflexivity].
    destruct N. pose proof (proj1 S eq_refl). tauto.
Qed.

(** ** Metrics *)
Lemma progerror_outcomes : forall name scale source,
  (forall m s, progerror_new name scale source = Ok (m, s) <-> names_mode name m /\ s = pe_source scale source) /\
  (~ named name ["unipolar"; "bipolar"] -> progerror_new name scale source = Err AssertionError).
Proof.
  intros name scale source. unfold progerror_new. split.
  - intros m s. rewrite bind_ok. rewrite <- mode_named. split.
    + intros (m' & M & E). injection E as <- <-. auto.
    + intros [M ->]. eauto.
  - intros N. rewrite (proj2 (proj2 (mode_names name)) N). reflexivity.
Qed.

(** ** Stream layers: which exception *)
Lemma rng_parse_named : forall s, (exists k, rng_parse s = Ok k) <-> named s ["sobol"; "race"; "lfsr"; "sys"; "rc"; "tc"; "race10"; "tc10"].
Proof.
  intros s. destruct (rng_names s) as (A & B & C & D & F & N). split.
  - intros (k & K). destruct (named_dec s ["sobol"; "race"; "lfsr"; "sys"; "rc"; "tc"; "race10"; "tc10"] ltac:(names)) as [H | H]; [exact H|].
    rewrite (N H) in K. discriminate.
  - intros H. rewrite named_in in H, A, B, C, D, F by names. cbn [In] in *.
    destruct H as [H | [H | [H | [H | [H | [H | [H | [H | []]]]]]]]]; rewrite <- H in *;
    first [rewrite A by tauto | rewrite B by tauto | rewrite C by tauto | rewrite D by tauto | rewrite F by tauto]; eauto.
Qed.
Lemma rng_parse_err : forall s e, rng_parse s = Err e -> e = AssertionError.
Proof.
  intros s e E. destruct (named_dec s ["sobol"; "race"; "lfsr"; "sys"; "rc"; "tc"; "race10"; "tc10"] ltac:(names)) as [H | H].
  - apply rng_parse_named in H. destruct H as (k & K). congruence.
  - destruct (rng_names s) as (_ & _ & _ & _ & _ & N). rewrite (N H) in E. congruence.
Qed.
Lemma mode_parse_named : forall s, (exists m, mode_parse s = Ok m) <-> named s ["unipolar"; "bipolar"].
Proof.
  intros s. split.
  - intros (m & M). apply mode_named in M. destruct M as [[_ M] | [_ M]]; refine (named_incl _ _ _ _ M); intros x [<- | []]; cbn; auto.
  - intros H. destruct (mode_parse s) as [m | e] eqn:M; [eauto|]. exfalso. destruct (mode_names s) as (U & B & _).
    rewrite named_in in H, U, B by names. cbn in *. destruct H as [H | [H | []]]; [rewrite U in M by auto|rewrite B in M by auto]; discriminate.
Qed.
Lemma pc_errors : forall ext ni no (bias : bool) we be wi width mn rn d,
  let r := pc_new ext ni no bias we be wi width mn rn d in
  (r = Err AttributeError <-> named mn ["unipolar"; "bipolar"] /\ named rn ["sobol"; "race"; "lfsr"; "sys"; "rc"; "tc"; "race10"; "tc10"] /\
     (forall w, we = Some w -> mat no ni w) /\ bias = true /\ be = None) /\
  (forall e, r = Err e -> e = AttributeError \/ e = AssertionError).
Proof.
  intros ext ni no bias we be wi width mn rn d r. unfold r, pc_new. rewrite <- mode_parse_named, <- rng_parse_named.
  destruct (mode_parse mn) as [m | e] eqn:M; cbn [bind].
  2: { apply mode_err in M. subst e. split; [split; [discriminate|intros ((m & X) & _); discriminate]|]. intros e E. right. congruence. }
  destruct (rng_parse rn) as [k | e] eqn:K; cbn [bind].
  2: { apply rng_parse_err in K. subst e. split; [split; [discriminate|intros (_ & (m' & X) & _); discriminate]|]. intros e E. right. congruence. }
  assert (forall w : list (list Q), we = Some w -> mat no ni w <-> shape2 no ni w = true) as SW by (intros w _; symmetry; apply shape2_mat).
  assert (forall w e, bind (if bias then match be with None => Err AttributeError | Some v => if (List.length v =? no)%nat then Ok (Some (map (bingen m width) v))
      else Err AssertionError end else Ok None) (fun b => Ok {| pc_mode := m; pc_wtc := is_tc k; pc_rng := rng_seq ext k width d; pc_in := ni; pc_out := no;
        pc_weight := w; pc_bias := b |}) = Err e -> (e = AttributeError /\ bias = true /\ be = None) \/ e = AssertionError) as TL.
  { intros w e E. destruct bias; [destruct be as [v|]; [destruct (List.length v =? no)%nat|]|]; cbn [bind] in E; try discriminate; [right|left]; split || idtac; congruence || auto. }
  destruct we as [w|].
  - destruct (shape2 no ni w) eqn:S; cbn [bind].
    + split.
      * split.
        -- intros E. apply TL in E. destruct E as [(_ & -> & ->) | X]; [|discriminate].
           repeat (split; [solve [eauto]|]). split; [|auto]. intros w' W. injection W as <-. apply shape2_mat. exact S.
        -- intros (_ & _ & _ & -> & ->). reflexivity.
      * intros e E. apply TL in E. tauto.
    + split; [split; [discriminate|]|intros e E; right; congruence].
      intros (_ & _ & W & _). specialize (W w eq_refl). apply shape2_mat in W. congruence.
  - cbn [bind]. split.
    + split.
      * intros E. apply TL in E. destruct E as [(_ & -> & ->) | X]; [|discriminate].
        repeat (split; [solve [eauto]|]). split; [discriminate|auto].
      * intros (_ & _ & _ & -> & ->). reflexivity.
    + intros e E. apply TL in E. tauto.
Qed.
(** The combination FSULinear and FSUConv2d refuse: bipolar, unscaled, temporal coded weights. *)
Lemma tc_refused : forall mn rn (unscaled : bool),
  ((lower mn =? "bipolar")%string && unscaled && match rng_parse rn with Ok k => is_tc k | Err _ => false end)%bool = true <->
  named mn ["bipolar"] /\ unscaled = true /\ named rn ["race"; "tc"; "race10"; "tc10"].
Proof.
  intros mn rn u. rewrite !andb_true_iff, String.eqb_eq. fold (temporal_rng rn). rewrite temporal_rng_named.
  rewrite (named_in mn ["bipolar"]) by names. cbn [In]. intuition congruence.
Qed.
Lemma flin_errors : forall ext ni no (bias : bool) we be wi width mn rn d scale depth,
  let r := flin_new ext ni no bias we be wi width mn rn d scale depth in
  let refused := named mn ["bipolar"] /\ named rn ["race"; "tc"; "race10"; "tc10"] /\
    exists q, scale = Some q /\ ~ (q == inject_Z (Z.of_nat ni + (if bias then 1 else 0)))%Q in
  (refused -> r = Err AssertionError) /\
  (~ refused -> forall e, r = Err e <-> pc_new ext ni no bias we be wi width mn rn d = Err e).
Proof.
  intros ext ni no bias we be wi width mn rn d scale depth r refused. unfold r, flin_new.
  set (u := match scale with None => false | Some q => negb (Qeq_bool q (inject_Z (Z.of_nat ni + b2z bias))) end).
  assert (u = true <-> exists q, scale = Some q /\ ~ (q == inject_Z (Z.of_nat ni + (if bias then 1 else 0)))%Q) as U.
  { unfold u. change (if bias then 1 else 0) with (b2z bias). destruct scale as [q|].
    - rewrite negb_true_iff. split.
      + intros E. exists q. split; [reflexivity|]. intros H. apply Qeq_bool_iff in H. congruence.
      + intros (q' & E & H). injection E as <-. apply not_true_iff_false. rewrite Qeq_bool_iff. exact H.
    - split; [discriminate|intros (q & E & _); discriminate]. }
  clearbody u. pose proof (tc_refused mn rn u) as T.
  set (b := ((lower mn =? "bipolar")%string && u && match rng_parse rn with Ok k => is_tc k | Err _ => false end)%bool) in *. clearbody b.
  assert (b = true <-> refused) as R by (rewrite T, U; unfold refused; tauto).
  split.
  - intros H. apply R in H. rewrite H. reflexivity.
  - intros N e. destruct b; [tauto|]. destruct (pc_new ext ni no bias we be wi width mn rn d) as [c | e']; cbn [bind]; split; congruence.
Qed.
Lemma conv_errors : forall ext ci co kernel stride pad dil groups (bias : bool) pm we be wi width mn rn d,
  let r := conv_new ext ci co kernel stride pad dil groups bias pm we be wi width mn rn d in
  (r = Err ValueError <-> ~ torch_accepts ci co groups pm) /\
  (r = Err AttributeError <-> named mn ["unipolar"; "bipolar"] /\ groups = 1%nat /\ pm = "zeros" /\
     named rn ["sobol"; "race"; "lfsr"; "sys"; "rc"; "tc"; "race10"; "tc10"] /\
     (forall w, we = Some w -> kern co ci (fst kernel) (snd kernel) w) /\ bias = true /\ be = None) /\
  (forall e, r = Err e -> e = ValueError \/ e = AttributeError \/ e = AssertionError).
Proof.
  intros ext ci co kernel stride pad dil groups bias pm we be wi width mn rn d r. unfold r, conv_new.
  set (rest := bind (mode_parse mn) _).
  assert ((if negb ((ci mod groups =? 0) && (co mod groups =? 0))%nat then Err ValueError
           else if negb (padding_mode_known pm) then Err ValueError else rest) = bind (conv2d_base ci co groups pm) (fun _ => rest)) as ->.
  { clearbody rest. unfold conv2d_base. destruct (_ && _)%bool; [|reflexivity]. destruct (padding_mode_known pm); reflexivity. }
  enough (H : (rest = Err AttributeError <-> named mn ["unipolar"; "bipolar"] /\ groups = 1%nat /\ pm = "zeros" /\
     named rn ["sobol"; "race"; "lfsr"; "sys"; "rc"; "tc"; "race10"; "tc10"] /\
     (forall w, we = Some w -> kern co ci (fst kernel) (snd kernel) w) /\ bias = true /\ be = None) /\
     (forall e, rest = Err e -> e = AttributeError \/ e = AssertionError)).
  { destruct H as [A E]. destruct (base_cases ci co groups pm) as [[-> T] | [-> T]]; cbn [bind].
    - split; [|split; [exact A|]].
      + split; [|tauto]. intros H. apply E in H. destruct H; discriminate.
      + intros e H. apply E in H. tauto.
    - split; [tauto|split].
      + split; [discriminate|]. intros (_ & -> & -> & _). destruct T. apply accepts_one.
      + intros e H. left. congruence. }
  unfold rest. clear rest r. rewrite <- mode_parse_named, <- rng_parse_named.
  destruct (mode_parse mn) as [m | e] eqn:M; cbn [bind].
  2: { apply mode_err in M. subst e. split; [split; [discriminate|intros ((m & X) & _); discriminate]|]. intros e E. right. congruence. }
  destruct (Nat.eqb_spec groups 1) as [G|G]; cbn [negb].
  2: { split; [split; [discriminate|tauto]|]. intros e E. right. congruence. }
  destruct (String.eqb_spec pm "zeros") as [P|P]; cbn [negb].
  2: { split; [split; [discriminate|tauto]|]. intros e E. right. congruence. }
  destruct (rng_parse rn) as [k | e] eqn:K; cbn [bind].
  2: { apply rng_parse_err in K. subst e. split; [split; [discriminate|intros (_ & _ & _ & (m' & X) & _); discriminate]|]. intros e E. right. congruence. }
  destruct kernel as [kh kw]. cbn [fst snd].
  assert (forall (T : Type) (f : option (list Z) -> T) e, bind (if bias then match be with None => Err AttributeError
      | Some v => if (List.length v =? co)%nat then Ok (Some (map (bingen m width) v))
      else Err AssertionError end else Ok None) (fun b => Ok (f b)) = Err e -> (e = AttributeError /\ bias = true /\ be = None) \/ e = AssertionError) as TL.
  { intros T f e E. destruct bias; [destruct be as [v|]; [destruct (List.length v =? co)%nat|]|]; cbn [bind] in E; try discriminate; [right|left]; split || idtac; congruence || auto. }
  destruct we as [w|].
  - destruct (shape4 co ci kh kw w) eqn:S; cbn [bind].
    + split.
      * split.
        -- intros E. apply TL in E. destruct E as [(_ & -> & ->) | X]; [|discriminate].
           repeat (split; [solve [eauto]|]). split; [|auto]. intros w' W. injection W as <-. apply shape4_kern. exact S.
        -- intros (_ & _ & _ & _ & _ & -> & ->). reflexivity.
      * intros e E. apply TL in E. tauto.
    + split; [split; [discriminate|]|intros e E; right; congruence].
      intros (_ & _ & _ & _ & W & _). specialize (W w eq_refl). apply shape4_kern in W. congruence.
  - cbn [bind]. split.
    + split.
      * intros E. apply TL in E. destruct E as [(_ & -> & ->) | X]; [|discriminate].
        repeat (split; [solve [eauto]|]). split; [discriminate|auto].
      * intros (_ & _ & _ & _ & _ & -> & ->). reflexivity.
    + intros e E. apply TL in E. tauto.
Qed.
Lemma fconv_errors : forall ext ci co kernel stride pad dil groups (bias : bool) pm we be wi width mn rn d scale depth,
  let r := fconv_new ext ci co kernel stride pad dil groups bias pm we be wi width mn rn d scale depth in
  let refused := named mn ["bipolar"] /\ named rn ["race"; "tc"; "race10"; "tc10"] /\
    exists q, scale = Some q /\ ~ (q == inject_Z (Z.of_nat (fst kernel * snd kernel * ci) + (if bias then 1 else 0)))%Q in
  (refused -> r = Err AssertionError) /\
  (~ refused -> forall e, r = Err e <-> conv_new ext ci co kernel stride pad dil groups bias pm we be wi width mn rn d = Err e).
Proof.
  intros ext ci co kernel stride pad dil groups bias pm we be wi width mn rn d scale depth r refused. unfold r, fconv_new.
  set (u := match scale with None => false | Some q => negb (Qeq_bool q (inject_Z (Z.of_nat (fst kernel * snd kernel * ci) + b2z bias))) end).
  assert (u = true <-> exists q, scale = Some q /\ ~ (q == inject_Z (Z.of_nat (fst kernel * snd kernel * ci) + (if bias then 1 else 0)))%Q) as U.
  { unfold u. change (if bias then 1 else 0) with (b2z bias). destruct scale as [q|].
    - rewrite negb_true_iff. split.
      + intros E. exists q. split; [reflexivity|]. intros H. apply Qeq_bool_iff in H. congruence.
      + intros (q' & E & H). injection E as <-. apply not_true_iff_false. rewrite Qeq_bool_iff. exact H.
    - split; [discriminate|intros (q & E & _); discriminate]. }
  clearbody u. pose proof (tc_refused mn rn u) as T.
  set (b := ((lower mn =? "bipolar")%string && u && match rng_parse rn with Ok k => is_tc k | Err _ => false end)%bool) in *. clearbody b.
  assert (b = true <-> refused) as R by (rewrite T, U; unfold refused; tauto).
  split.
  - intros H. apply R in H. rewrite H. reflexivity.
  - intros N e. destruct b; [tauto|].
    destruct (conv_new ext ci co kernel stride pad dil groups bias pm we be wi width mn rn d) as [c | e']; cbn [bind]; split; congruence.
Qed.
(** FSUMGUCell. *)
Lemma check_w_cases : forall r c w,
  (mgu_check_w r c w = Ok tt /\ exists m, w = Some m /\ mat r c m) \/ (mgu_check_w r c w = Err AttributeError /\ w = None) \/
  (mgu_check_w r c w = Err AssertionError /\ exists m, w = Some m /\ ~ mat r c m).
Proof.
  intros r c w. unfold mgu_check_w. destruct w as [m|]; [|auto]. destruct (shape2 r c m) eqn:S.
  - left. split; [reflexivity|]. exists m. split; [reflexivity|]. apply shape2_mat. exact S.
  - right. right. split; [reflexivity|]. exists m. split; [reflexivity|]. intros H. apply shape2_mat in H. congruence.
Qed.
Lemma check_b_cases : forall n (bias : bool) b,
  (mgu_check_b n bias b = Ok tt /\ (bias = true -> exists v, b = Some v /\ vec n v)) \/ (mgu_check_b n bias b = Err AttributeError /\ bias = true /\ b = None) \/
  (mgu_check_b n bias b = Err AssertionError /\ bias = true /\ exists v, b = Some v /\ ~ vec n v).
Proof.
  intros n bias b. unfold mgu_check_b, vec. destruct bias; [|left; split; [reflexivity|discriminate]].
  destruct b as [v|]; [|auto]. destruct (Nat.eqb_spec (List.length v) n) as [L|L]; [left|right; right]; eauto.
Qed.
Lemma mgu_errors : forall ext I H (bias : bool) wf bf wn bn hx width mn depth dmul rn d,
  let r := mgu_new ext I H bias wf bf wn bn hx width mn depth dmul rn d in
  let weight w := exists m, w = Some m /\ mat H (H + I) m in
  let unset b := bias = true /\ b = None in
  let given b := bias = true -> exists v, b = Some v /\ vec H v in
  (r = Err AttributeError <-> named mn ["bipolar"] /\
     (wf = None \/ (weight wf /\ (wn = None \/ (weight wn /\ (unset bf \/ (given bf /\ unset bn))))))) /\
  (forall e, r = Err e -> e = AttributeError \/ e = AssertionError).
Proof.
  intros ext I H bias wf bf wn bn hx width mn depth dmul rn d r weight unset given. unfold r, mgu_new.
  assert (named mn ["bipolar"] <-> lower mn = "bipolar") as NM by (rewrite named_in by names; cbn [In]; intuition congruence).
  rewrite NM. clear NM. destruct (String.eqb_spec (lower mn) "bipolar") as [Hm|Hm]; cbn [negb].
  2: { split; [split; [discriminate|tauto]|]. intros e E. right. congruence. }
  destruct (check_w_cases H (H + I) wf) as [[-> Wf] | [[-> Wf] | [-> (m & Wf & Nf)]]]; cbn [bind].
  2: { split; [tauto|]. intros e E. left. congruence. }
  2: { split; [split; [discriminate|]|intros e E; right; congruence]. unfold weight. rewrite Wf. intros (_ & [X | [(m' & E & M) _]]); [discriminate|].
       injection E as <-. tauto. }
  assert (wf <> None) as Nf by (destruct Wf as (m & -> & _); discriminate).
  destruct (check_w_cases H (H + I) wn) as [[-> Wn] | [[-> Wn] | [-> (m & Wn & Nn)]]]; cbn [bind].
  2: { split; [unfold weight; tauto|]. intros e E. left. congruence. }
  2: { split; [split; [discriminate|]|intros e E; right; congruence]. unfold weight. rewrite Wn. intros (_ & [X | [_ [X | [(m' & E & M) _]]]]); [tauto|discriminate|].
       injection E as <-. tauto. }
  assert (wn <> None) as Nn by (destruct Wn as (m & -> & _); discriminate).
  destruct (check_b_cases H bias bf) as [[-> Bf] | [[-> Bf] | [-> (Bi & v & Bf & Vf)]]]; cbn [bind].
  2: { split; [unfold weight, unset; tauto|]. intros e E. left. congruence. }
  2: { split; [split; [discriminate|]|intros e E; right; congruence]. unfold unset, given. rewrite Bf.
       intros (_ & [X | [_ [X | [_ [[_ X] | [G _]]]]]]); try tauto; try discriminate. destruct (G Bi) as (v' & E & V). injection E as <-. tauto. }
  destruct (check_b_cases H bias bn) as [[-> Bn] | [[-> Bn] | [-> (Bi & v & Bn & Vn)]]]; cbn [bind].
  2: { split; [unfold weight, unset, given; tauto|]. intros e E. left. congruence. }
  2: { split; [split; [discriminate|]|intros e E; right; congruence]. unfold unset, given. rewrite Bn.
       intros (_ & [X | [_ [X | [_ [[_ X] | [_ [_ X]]]]]]]); try tauto; try discriminate. subst bf. destruct (Bf Bi) as (v' & E & _). discriminate. }
  assert (forall e, flin_new (ext 0%nat) (H + I) H bias wf bf [] width mn rn d (Some 1%Q) depth = Err e -> e = AssertionError) as E0.
  { intros e E. destruct (flin_errors (ext 0%nat) (H + I) H bias wf bf [] width mn rn d (Some 1%Q) depth) as [A B].
    set (ref := _ /\ _) in A, B.
    destruct (flin_new (ext 0%nat) (H + I) H bias wf bf [] width mn rn d (Some 1%Q) depth) as [c | e'] eqn:F; [discriminate|]. injection E as ->.
    unfold flin_new in F. destruct (_ && _)%bool; [congruence|].
    destruct (pc_errors (ext 0%nat) (H + I) H bias wf bf [] width mn rn d) as [P Q].
    destruct (pc_new (ext 0%nat) (H + I) H bias wf bf [] width mn rn d) as [c | e'] eqn:N; [discriminate|]. cbn [bind] in F. injection F as ->.
    destruct (Q e eq_refl) as [-> | ->]; [|reflexivity]. exfalso. destruct (proj1 P eq_refl) as (_ & _ & _ & Bt & Bo). destruct (Bf Bt) as (v & Bv & _). congruence. }
  assert (forall e, flin_new (ext 1%nat) (H + I) H bias wn bn [] width mn rn d (Some 1%Q) depth = Err e -> e = AssertionError) as E1.
  { intros e F. unfold flin_new in F. destruct (_ && _)%bool; [congruence|].
    destruct (pc_errors (ext 1%nat) (H + I) H bias wn bn [] width mn rn d) as [P Q].
    destruct (pc_new (ext 1%nat) (H + I) H bias wn bn [] width mn rn d) as [c | e'] eqn:N; [discriminate|]. cbn [bind] in F. injection F as ->.
    destruct (Q e eq_refl) as [-> | ->]; [|reflexivity]. exfalso. destruct (proj1 P eq_refl) as (_ & _ & _ & Bt & Bo). destruct (Bn Bt) as (v & Bv & _). congruence. }
  set (rest := bind (flin_new (ext 0%nat) _ _ _ _ _ _ _ _ _ _ _ _) _).
  assert (forall e, rest = Err e -> e = AssertionError) as RE.
  { unfold rest. clear rest. intros e E. apply bind_err in E. destruct E as [E | (f & _ & E)]; [auto|].
    apply bind_err in E. destruct E as [E | (g & _ & E)]; [auto|].
    apply bind_err in E. destruct E as [E | (k & _ & E)]; [exact (rng_parse_err _ _ E)|]. destruct hx; congruence. }
  clearbody rest. split; [|intros e E; right; exact (RE e E)].
  split; [intros E; apply RE in E; discriminate|]. intros (_ & [X | [_ [X | [_ [[Bt Bo] | [_ [Bt Bo]]]]]]]); try tauto.
  - destruct (Bf Bt) as (v & Bv & _). congruence.
  - destruct (Bn Bt) as (v & Bv & _). congruence.
Qed.
