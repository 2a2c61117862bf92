(** Proofs about configuration names. *)
From Coq Require Import String Ascii List.
Require Import Verif.BaseLemmas Verif.GenModel Verif.NameSpec Verif.UtilsModel Verif.LinearModel Verif.HubModel Verif.HubProof Verif.TlutProof
  Verif.BinConvSpec Verif.BinConvModel Verif.BinConvProof.
From Coq Require Import Lia Lqa.
Open Scope string_scope. Open Scope list_scope.

Lemma lower_idem_char : forall a, lower_ascii (lower_ascii a) = lower_ascii a.
Proof. intros [[] [] [] [] [] [] [] []]; reflexivity. Qed.
Lemma lower_letter : forall a, same_letter a (lower_ascii a).
Proof.
  intros a. unfold lower_ascii, same_letter. destruct ((65 <=? nat_of_ascii a) && (nat_of_ascii a <=? 90))%nat eqn:E.
  - right. left. apply andb_prop in E. destruct E as [E1 E2].
    apply PeanoNat.Nat.leb_le in E1. apply PeanoNat.Nat.leb_le in E2.
    split; [lia|]. apply nat_ascii_embedding. lia.
  - left. reflexivity.
Qed.
Lemma letter_lower : forall a b, same_letter a b -> lower_ascii a = lower_ascii b.
Proof.
  assert (F : forall a b, (65 <= nat_of_ascii a <= 90)%nat -> nat_of_ascii b = (nat_of_ascii a + 32)%nat -> lower_ascii a = lower_ascii b).
  { intros a b A B. unfold lower_ascii. rewrite B.
    rewrite (proj2 (PeanoNat.Nat.leb_le 65 (nat_of_ascii a)) (proj1 A)), (proj2 (PeanoNat.Nat.leb_le (nat_of_ascii a) 90) (proj2 A)).
    replace ((nat_of_ascii a + 32 <=? 90)%nat) with false by (symmetry; apply PeanoNat.Nat.leb_gt; lia).
    rewrite Bool.andb_false_r. cbn [andb]. rewrite <- B. apply ascii_nat_embedding. }
  intros a b [->|[[A B]|[A B]]]; [reflexivity|apply F; assumption|symmetry; apply F; assumption].
Qed.
Lemma same_name_lower : forall s t, same_name s t -> lower s = lower t.
Proof. intros s t H. induction H as [|a b s t L H IH]; cbn [lower]; [reflexivity|]. rewrite (letter_lower a b L), IH. reflexivity. Qed.
Lemma lower_same_name : forall s, same_name s (lower s).
Proof. induction s as [|a s IH]; cbn [lower]; constructor; [apply lower_letter|assumption]. Qed.
(** For a name written in lower case. *)
Lemma name_spec : forall s n, lower n = n -> (same_name s n <-> lower s = n).
Proof.
  intros s n L. split; intros H.
  - rewrite (same_name_lower s n H). exact L.
  - rewrite <- H. apply lower_same_name.
Qed.
Lemma named_in : forall s l, Forall (fun n => lower n = n) l -> (named s l <-> In (lower s) l).
Proof.
  intros s l F. split.
  - intros (n & I & N). apply (name_spec s n) in N; [rewrite N; exact I|]. rewrite Forall_forall in F. apply F. exact I.
  - intros I. exists (lower s). split; [exact I|apply lower_same_name].
Qed.
Ltac names := repeat (first [apply Forall_nil | apply Forall_cons; [reflexivity|]]).

(** All the names that are parsed the same way. *)
Lemma rng_names : forall name,
  (named name ["sobol"; "rc"] -> rng_parse name = Ok KSobol) /\
  (named name ["race"; "tc"] -> rng_parse name = Ok KAsc) /\
  (named name ["race10"; "tc10"] -> rng_parse name = Ok KDesc) /\
  (named name ["lfsr"] -> rng_parse name = Ok KLfsr) /\
  (named name ["sys"] -> rng_parse name = Ok KSys) /\
  (~ named name ["sobol"; "race"; "lfsr"; "sys"; "rc"; "tc"; "race10"; "tc10"] -> rng_parse name = Err AssertionError).
Proof.
  intros name. repeat split; intros H;
  try (apply named_in in H; [|names]; unfold rng_parse; cbn [In] in H; intuition; match goal with E : _ = lower name |- _ => rewrite <- E end; reflexivity).
  rewrite named_in in H by names. unfold rng_parse. cbn [In] in H.
  repeat match goal with |- context [(lower name =? ?n)%string] => destruct (String.eqb_spec (lower name) n) as [E|_]; [exfalso; apply H; rewrite E; tauto|] end.
  reflexivity.
Qed.
Lemma mode_names : forall name,
  (named name ["unipolar"] -> mode_parse name = Ok Unipolar) /\
  (named name ["bipolar"] -> mode_parse name = Ok Bipolar) /\
  (~ named name ["unipolar"; "bipolar"] -> mode_parse name = Err AssertionError).
Proof.
  intros name. repeat split; intros H;
  try (apply named_in in H; [|names]; unfold mode_parse; cbn [In] in H; intuition; match goal with E : _ = lower name |- _ => rewrite <- E end; reflexivity).
  rewrite named_in in H by names. unfold mode_parse. cbn [In] in H.
  repeat match goal with |- context [(lower name =? ?n)%string] => destruct (String.eqb_spec (lower name) n) as [E|_]; [exfalso; apply H; rewrite E; tauto|] end.
  reflexivity.
Qed.
Lemma format_names : forall name,
  (named name ["fxp"] -> format_parse name = Ok TFxp) /\
  (named name ["bfloat16"] -> format_parse name = Ok TBfloat16) /\
  (named name ["float16"] -> format_parse name = Ok TFloat16) /\
  (named name ["float32"] -> format_parse name = Ok TFloat32) /\
  (~ named name ["fxp"; "bfloat16"; "float16"; "float32"] -> format_parse name = Err AssertionError).
Proof.
  intros name. repeat split; intros H;
  try (apply named_in in H; [|names]; unfold format_parse; cbn [In] in H; intuition; match goal with E : _ = lower name |- _ => rewrite <- E end; reflexivity).
  rewrite named_in in H by names. unfold format_parse. cbn [In] in H.
  repeat match goal with |- context [(lower name =? ?n)%string] => destruct (String.eqb_spec (lower name) n) as [E|_]; [exfalso; apply H; rewrite E; tauto|] end.
  reflexivity.
Qed.
Lemma temporal_names : forall name,
  (named name ["i"; "input"] -> temporal_parse name = Ok true) /\
  (named name ["w"; "weight"] -> temporal_parse name = Ok false) /\
  (~ named name ["i"; "input"; "w"; "weight"] -> temporal_parse name = Err AssertionError).
Proof.
  intros name. repeat split; intros H;
  try (apply named_in in H; [|names]; unfold temporal_parse; cbn [In] in H; intuition; match goal with E : _ = lower name |- _ => rewrite <- E end; reflexivity).
  rewrite named_in in H by names. unfold temporal_parse. cbn [In] in H.
  repeat match goal with |- context [(lower name =? ?n)%string] => destruct (String.eqb_spec (lower name) n) as [E|_]; [exfalso; apply H; rewrite E; tauto|] end.
  reflexivity.
Qed.
Lemma rounding_names : forall name,
  (named name ["round"] -> rounding_parse name = Ok RRound) /\
  (named name ["ceil"] -> rounding_parse name = Ok RCeil) /\
  (named name ["floor"] -> rounding_parse name = Ok RFloor) /\
  (~ named name ["round"; "ceil"; "floor"] -> rounding_parse name = Err AssertionError).
Proof.
  intros name. repeat split; intros H;
  try (apply named_in in H; [|names]; unfold rounding_parse; cbn [In] in H; intuition; match goal with E : _ = lower name |- _ => rewrite <- E end; reflexivity).
  rewrite named_in in H by names. unfold rounding_parse. cbn [In] in H.
  repeat match goal with |- context [(lower name =? ?n)%string] => destruct (String.eqb_spec (lower name) n) as [E|_]; [exfalso; apply H; rewrite E; tauto|] end.
  reflexivity.
Qed.

Lemma named_dec : forall s l, Forall (fun n => lower n = n) l -> {named s l} + {~ named s l}.
Proof.
  intros s l F. destruct (in_dec string_dec (lower s) l) as [I|N]; [left|right]; rewrite named_in by exact F; assumption.
Qed.
(** A name cannot be in two lists that share no entry. *)
Lemma named_disjoint : forall s l l', Forall (fun n => lower n = n) l -> Forall (fun n => lower n = n) l' ->
  (forall n, In n l -> In n l' -> False) -> named s l -> named s l' -> False.
Proof. intros s l l' F F' D A B. apply named_in in A; [|exact F]. apply named_in in B; [|exact F']. exact (D _ A B). Qed.
Lemma named_incl : forall s l l', incl l l' -> named s l -> named s l'.
Proof. intros s l l' I (n & A & B). exists n. split; [apply I; exact A|exact B]. Qed.

Lemma temporal_named : forall s b, temporal_parse s = Ok b <-> named s (if b then ["i"; "input"] else ["w"; "weight"]).
Proof.
  intros s b. destruct (temporal_names s) as (A & B & C). split.
  - intros H. destruct (named_dec s ["i"; "input"; "w"; "weight"]) as [N|N]; [names| |rewrite (C N) in H; discriminate].
    destruct N as (n & I & E). cbn [In] in I.
    assert (D : named s ["i"; "input"] \/ named s ["w"; "weight"]).
    { destruct I as [<-|[<-|[<-|[<-|[]]]]]; [left|left|right|right]; (eexists; split; [|exact E]); cbn [In]; tauto. }
    destruct D as [D|D]; [rewrite (A D) in H|rewrite (B D) in H]; injection H as <-; exact D.
  - destruct b; assumption.
Qed.
Definition format_name (f : tformat) : string :=
  match f with TFxp => "fxp" | TBfloat16 => "bfloat16" | TFloat16 => "float16" | TFloat32 => "float32" end.
Lemma format_named : forall s f, format_parse s = Ok f <-> named s [format_name f].
Proof.
  intros s f. destruct (format_names s) as (A & B & C & D & E). split.
  - intros H. destruct (named_dec s ["fxp"; "bfloat16"; "float16"; "float32"]) as [N|N]; [names| |rewrite (E N) in H; discriminate].
    destruct N as (n & I & S). cbn [In] in I.
    assert (X : named s ["fxp"] \/ named s ["bfloat16"] \/ named s ["float16"] \/ named s ["float32"]).
    { destruct I as [<-|[<-|[<-|[<-|[]]]]]; [left|right; left|right; right; left|right; right; right]; (eexists; split; [|exact S]); cbn [In]; tauto. }
    destruct X as [X|[X|[X|X]]]; [rewrite (A X) in H|rewrite (B X) in H|rewrite (C X) in H|rewrite (D X) in H]; injection H as <-; exact X.
  - destruct f; assumption.
Qed.
Definition rounding_name (r : rounding) : string := match r with RRound => "round" | RCeil => "ceil" | RFloor => "floor" end.
Lemma rounding_named : forall s r, rounding_parse s = Ok r <-> named s [rounding_name r].
Proof.
  intros s r. destruct (rounding_names s) as (A & B & C & E). split.
  - intros H. destruct (named_dec s ["round"; "ceil"; "floor"]) as [N|N]; [names| |rewrite (E N) in H; discriminate].
    destruct N as (n & I & S). cbn [In] in I.
    assert (X : named s ["round"] \/ named s ["ceil"] \/ named s ["floor"]).
    { destruct I as [<-|[<-|[<-|[]]]]; [left|right; left|right; right]; (eexists; split; [|exact S]); cbn [In]; tauto. }
    destruct X as [X|[X|X]]; [rewrite (A X) in H|rewrite (B X) in H|rewrite (C X) in H]; injection H as <-; exact X.
  - destruct r; assumption.
Qed.
Lemma named_list : forall (T : Type) (f : T -> string) s l, named s (map f l) <-> exists x, In x l /\ named s [f x].
Proof.
  intros T f s l. split.
  - intros (n & I & E). apply in_map_iff in I. destruct I as (x & <- & I). exists x. split; [exact I|]. exists (f x). split; [left; reflexivity|exact E].
  - intros (x & I & n & J & E). exists n. split; [|exact E]. destruct J as [<-|[]]. apply in_map. exact I.
Qed.

(** Which configurations are accepted. *)
Lemma tlut_accepts : forall temporal formati formatw widthi widthw widtht qi qw cycle rnd signmag,
  let accepted := named temporal ["i"; "input"; "w"; "weight"] /\ named formati ["fxp"; "bfloat16"; "float16"; "float32"] /\
    named formatw ["fxp"; "bfloat16"; "float16"; "float32"] /\ (0 < qi <= 1)%Q /\ (0 < qw <= 1)%Q /\
    named rnd ["round"; "ceil"; "floor"] /\ signmag = true in
  let r := tlut_new temporal formati formatw widthi widthw widtht qi qw cycle rnd signmag in
  (accepted -> exists c, r = Ok c) /\ (~ accepted -> r = Err AssertionError).
Proof.
  intros temporal formati formatw widthi widthw widtht qi qw cycle rnd signmag accepted r.
  assert (Y : (exists c, r = Ok c) -> accepted).
  { intros [c E]. apply tlut_new_ok in E. destruct E as (tin & fi & fw & rr & A & B & C & D & S & Qi & Qw & _).
    apply temporal_named in A. apply format_named in B. apply format_named in C. apply rounding_named in D.
    split; [|split; [|split; [|split; [exact Qi|split; [exact Qw|split; [|exact S]]]]]].
    - revert A. destruct tin; apply named_incl; intros x; cbn [In]; tauto.
    - revert B. destruct fi; apply named_incl; intros x; cbn [In format_name]; tauto.
    - revert C. destruct fw; apply named_incl; intros x; cbn [In format_name]; tauto.
    - revert D. destruct rr; apply named_incl; intros x; cbn [In rounding_name]; tauto. }
  assert (Z : accepted -> exists c, r = Ok c).
  { intros (A & B & C & Qi & Qw & D & S).
    assert (A' : exists b, temporal_parse temporal = Ok b).
    { destruct A as (n & I & E). cbn [In] in I.
      destruct I as [<-|[<-|[<-|[<-|[]]]]]; [exists true|exists true|exists false|exists false]; apply temporal_named; (eexists; split; [|exact E]); cbn [In]; tauto. }
    assert (F : forall s, named s ["fxp"; "bfloat16"; "float16"; "float32"] -> exists f, format_parse s = Ok f).
    { intros s N. apply (named_list _ format_name s [TFxp; TBfloat16; TFloat16; TFloat32]) in N. destruct N as (f & _ & N). exists f. apply format_named. exact N. }
    assert (D' : exists x, rounding_parse rnd = Ok x).
    { apply (named_list _ rounding_name rnd [RRound; RCeil; RFloor]) in D. destruct D as (f & _ & N). exists f. apply rounding_named. exact N. }
    destruct A' as [b A']. destruct (F _ B) as [fi B']. destruct (F _ C) as [fw C']. destruct D' as [x D'].
    eexists. apply tlut_new_ok. exists b, fi, fw, x. repeat (split; [assumption|]). reflexivity. }
  split; [exact Z|]. intros N. destruct r as [c|e] eqn:E; [exfalso; apply N, Y; exists c; reflexivity|].
  revert E. unfold r, tlut_new. 
  destruct (temporal_parse temporal) as [?|e1] eqn:E1; cbn [bind].
  2:{ intros E. injection E as <-. revert E1. unfold temporal_parse. repeat match goal with |- context [if ?b then _ else _] => destruct b end; congruence. }
  destruct (format_parse formati) as [?|e1] eqn:E2; cbn [bind].
  2:{ intros E. injection E as <-. revert E2. unfold format_parse. repeat match goal with |- context [if ?b then _ else _] => destruct b end; congruence. }
  destruct (format_parse formatw) as [?|e1] eqn:E3; cbn [bind].
  2:{ intros E. injection E as <-. revert E3. unfold format_parse. repeat match goal with |- context [if ?b then _ else _] => destruct b end; congruence. }
  destruct (negb (qgt qi 0 && Qle_bool qi 1)); [congruence|]. destruct (negb (qgt qw 0 && Qle_bool qw 1)); [congruence|].
  destruct (rounding_parse rnd) as [?|e1] eqn:E4; cbn [bind].
  2:{ intros E. injection E as <-. revert E4. unfold rounding_parse. repeat match goal with |- context [if ?b then _ else _] => destruct b end; congruence. }
  destruct (negb signmag); congruence.
Qed.

Lemma fmt_significand : forall s f width, format_parse s = Ok f -> significand s width (format_width f width).
Proof. intros s f width E. apply format_named in E. unfold significand. destruct f; cbn [format_name format_width] in *; auto 6. Qed.
Lemma significand_fmt : forall s f width n, format_parse s = Ok f -> significand s width n -> n = format_width f width.
Proof.
  intros s f width n E S. destruct S as [[N ->]|[[N ->]|[[N ->]|[N ->]]]];
  [apply (proj2 (format_named s TFxp)) in N|apply (proj2 (format_named s TBfloat16)) in N|apply (proj2 (format_named s TFloat16)) in N|apply (proj2 (format_named s TFloat32)) in N];
  rewrite N in E; injection E as <-; reflexivity.
Qed.
Lemma fxp_iff : forall s f, format_parse s = Ok f -> (f = TFxp <-> named s ["fxp"]).
Proof.
  intros s f E. split; intros H.
  - rewrite H in E. exact (proj1 (format_named s TFxp) E).
  - apply (proj2 (format_named s TFxp)) in H. congruence.
Qed.

(** What an accepted configuration means. *)
Lemma tlut_config : forall temporal formati formatw widthi widthw widtht qi qw cycle rnd signmag c,
  tlut_new temporal formati formatw widthi widthw widtht qi qw cycle rnd signmag = Ok c ->
  (tc_tin c = true <-> named temporal ["i"; "input"]) /\
  (tc_mode c = FxpFxp <-> named formati ["fxp"] /\ named formatw ["fxp"]) /\
  (tc_mode c = FpFp <-> ~ named formati ["fxp"] /\ ~ named formatw ["fxp"]) /\
  tc_widthi c = (widthi - 1)%nat /\ tc_widthw c = (widthw - 1)%nat /\ tc_widtht c = widtht /\
  (if tc_tin c then significand formati widthi (tc_width c) else significand formatw widthw (tc_width c)) /\
  (cycle = None -> tc_cycle c = 2 ^ Z.of_nat widtht)%Z /\ (forall n, cycle = Some n -> tc_cycle c = Z.min n (2 ^ Z.of_nat widtht))%Z /\
  (tc_round c = RRound <-> named rnd ["round"]) /\ (tc_round c = RCeil <-> named rnd ["ceil"]) /\ (tc_round c = RFloor <-> named rnd ["floor"]) /\
  tc_qi c = qi /\ tc_qw c = qw.
Proof.
  intros temporal formati formatw widthi widthw widtht qi qw cycle rnd signmag c H.
  apply tlut_new_ok in H. destruct H as (tin & fi & fw & r & A & B & C & D & _ & _ & _ & ->). cbn [tc_tin tc_mode tc_widthi tc_widthw tc_widtht tc_width tc_cycle tc_round tc_qi tc_qw].
  pose proof (fxp_iff _ _ B) as Fi. pose proof (fxp_iff _ _ C) as Fw.
  split.
  { split; intros H.
    - rewrite H in A. exact (proj1 (temporal_named temporal true) A).
    - apply (proj2 (temporal_named temporal true)) in H. congruence. }
  split; [rewrite <- Fi, <- Fw; destruct fi, fw; cbn; intuition congruence|].
  split; [rewrite <- Fi, <- Fw; destruct fi, fw; cbn; intuition congruence|].
  split; [reflexivity|]. split; [reflexivity|]. split; [reflexivity|].
  split; [destruct tin; apply fmt_significand; assumption|].
  split; [intros ->; reflexivity|]. split; [intros n ->; reflexivity|].
  assert (R : forall x, r = x <-> named rnd [rounding_name x]).
  { intros x. rewrite <- rounding_named. split; congruence. }
  split; [exact (R RRound)|]. split; [exact (R RCeil)|]. split; [exact (R RFloor)|]. split; reflexivity.
Qed.

(** The mixed formats, with names. *)
Lemma tlut_mixed_named : forall temporal formati formatw widthi widthw widtht qi qw rnd c (tin : bool) rd width B n no input weight bias ri rw ro,
  tlut_new temporal formati formatw widthi widthw widtht qi qw None rnd true = Ok c ->
  named temporal (if tin then ["i"; "input"] else ["w"; "weight"]) ->
  (named formati ["fxp"] /\ ~ named formatw ["fxp"] \/ ~ named formati ["fxp"] /\ named formatw ["fxp"]) ->
  (if tin then significand formati widthi width else significand formatw widthw width) -> rounding_parse rnd = Ok rd -> (1 <= widtht)%nat ->
  qshape B n input -> qshape no n weight -> bias_ok no bias ->
  rshift_offset (concat input) (concat weight) (Z.of_nat width) (Z.of_nat width) rd qi qw = Ok (Some (ri, rw, ro)) ->
  exists out, tlut_apply c input weight bias = Ok (Some out) /\
    forall b o, (b < B)%nat -> (o < no)%nat ->
      (qentry out b o ==
       (if tin then dotq n (fun i => tlut_plain width ri (qentry input b i)) (qentry weight o)
        else dotq n (qentry input b) (fun i => tlut_plain width rw (qentry weight o i))) + bias_entry bias o)%Q.
Proof.
  intros temporal formati formatw widthi widthw widtht qi qw rnd c tin rd width B n no input weight bias ri rw ro Ec Nt Nf Sg Pr Ht Hi Hw Hb Er.
  pose proof Ec as Ec'. apply tlut_new_ok in Ec'. destruct Ec' as (tin' & fi & fw & r & A & B' & C & D & _).
  apply temporal_named in Nt. assert (tin' = tin) by congruence. subst tin'.
  pose proof (fxp_iff _ _ B') as Fi. pose proof (fxp_iff _ _ C) as Fw.
  assert (W : width = (if tin then format_width fi widthi else format_width fw widthw)).
  { destruct tin; [apply (significand_fmt _ _ _ _ B' Sg)|apply (significand_fmt _ _ _ _ C Sg)]. }
  subst width. apply (tlut_mixed temporal formati formatw widthi widthw widtht qi qw rnd c tin fi fw rd B n no input weight bias ri rw ro Ec A B' C Pr Ht); try assumption.
  rewrite Fi, Fw. exact Nf.
Qed.

(** RNG, BSGen, RawScale. *)
Lemma rng_new_names : forall ext name w d,
  (named name ["sobol"; "rc"] -> rng_new ext name w d = Ok (rng_seq ext KSobol w d)) /\
  (named name ["race"; "tc"] -> rng_new ext name w d = Ok (rng_seq ext KAsc w d)) /\
  (named name ["race10"; "tc10"] -> rng_new ext name w d = Ok (rng_seq ext KDesc w d)) /\
  (named name ["lfsr"] -> rng_new ext name w d = Ok (rng_seq ext KLfsr w d)) /\
  (named name ["sys"] -> rng_new ext name w d = Ok (rng_seq ext KSys w d)) /\
  (~ named name ["sobol"; "race"; "lfsr"; "sys"; "rc"; "tc"; "race10"; "tc10"] -> rng_new ext name w d = Err AssertionError).
Proof.
  intros ext name w d. destruct (rng_names name) as (A & B & C & D & E & F). unfold rng_new.
  split; [intros H; rewrite (A H); reflexivity|]. split; [intros H; rewrite (B H); reflexivity|]. split; [intros H; rewrite (C H); reflexivity|].
  split; [intros H; rewrite (D H); reflexivity|]. split; [intros H; rewrite (E H); reflexivity|]. intros H; rewrite (F H); reflexivity.
Qed.
Lemma bsgen_new_spec : forall rng : list Z,
  (forall w, bsgen_new rng = Ok w <-> exists n, w = Z.of_nat n /\ List.length rng = Nat.pow 2 n) /\
  (bsgen_new rng = Err ValueError <-> rng = nil) /\
  (bsgen_new rng = Err AssertionError <-> rng <> nil /\ forall n, List.length rng <> Nat.pow 2 n).
Proof.
  intros rng. unfold bsgen_new, zlen.
  assert (P : forall n, Z.of_nat (Nat.pow 2 n) = (2 ^ Z.of_nat n)%Z) by (intros n; rewrite Nat2Z.inj_pow; reflexivity).
  destruct (Z.eqb_spec (Z.of_nat (List.length rng)) 0) as [E|N].
  - assert (R : rng = nil) by (destruct rng; [reflexivity|cbn [List.length] in E; lia]). subst rng. cbn [List.length].
    assert (Q : forall n, Nat.pow 2 n <> 0%nat) by (intros n; apply PeanoNat.Nat.pow_nonzero; lia).
    split; [intros w; split; [discriminate|intros (n & _ & H); symmetry in H; apply Q in H; destruct H]|]. split; [tauto|]. split; [discriminate|intros [H _]; congruence].
  - assert (R : rng <> nil) by (intros ->; apply N; reflexivity).
    assert (X : forall n, List.length rng = Nat.pow 2 n -> Z.log2 (Z.of_nat (List.length rng)) = Z.of_nat n).
    { intros n H. rewrite H, P. apply Z.log2_pow2. lia. }
    destruct (Z.eqb_spec (Z.of_nat (List.length rng)) (2 ^ Z.log2 (Z.of_nat (List.length rng)))) as [H|H].
    + assert (Y : List.length rng = Nat.pow 2 (Z.to_nat (Z.log2 (Z.of_nat (List.length rng))))).
      { apply Nat2Z.inj. rewrite P, Z2Nat.id by apply Z.log2_nonneg. exact H. }
      split; [|split; [split; [discriminate|tauto]|split; [discriminate|intros [_ K]; destruct (K _ Y)]]].
      intros w. split.
      * intros G. injection G as <-. eexists. split; [|exact Y]. rewrite Z2Nat.id by apply Z.log2_nonneg. reflexivity.
      * intros (n & -> & G). rewrite (X n G). reflexivity.
    + assert (K : forall n, List.length rng <> Nat.pow 2 n).
      { intros n G. apply H. rewrite (X n G), G, P. reflexivity. }
      split; [|split; [split; [discriminate|tauto]|tauto]].
      intros w. split; [discriminate|intros (n & _ & G); destruct (K n G)].
Qed.
Lemma rawscale_new_spec : forall q,
  ((0 < q <= 1)%Q -> rawscale_new q = Ok q) /\ (~ (0 < q <= 1)%Q -> rawscale_new q = Err AssertionError).
Proof.
  intros q. unfold rawscale_new. 
  assert (Q1 : (qgt q 0 && Qle_bool q 1)%bool = true <-> (0 < q <= 1)%Q).
  { unfold qgt. rewrite Bool.andb_true_iff, Bool.negb_true_iff, Qle_bool_iff. rewrite <- Bool.not_true_iff_false, Qle_bool_iff. intuition lra. }
  destruct (qgt q 0 && Qle_bool q 1)%bool.
  - split; [reflexivity|]. intros H. destruct H. apply Q1. reflexivity.
  - split; [|reflexivity]. intros H. apply Q1 in H. discriminate.
Qed.
Lemma floor_ints : forall l : list Z, map Qfloor (map inject_Z l) = l.
Proof. intros l. rewrite map_map. rewrite <- (map_id l) at 2. apply map_ext. intros x. apply Qfloor_Z. Qed.
Lemma rng_outcomes : forall ext name w d,
  (named name ["sobol"; "rc"] -> rng_new ext name w d = Ok (rng_seq ext KSobol w d)) /\
  (named name ["race"; "tc"] -> rng_new ext name w d = Ok (zrange (2 ^ w))) /\
  (named name ["race10"; "tc10"] -> rng_new ext name w d = Ok (rev (zrange (2 ^ w)))) /\
  (named name ["lfsr"] -> rng_new ext name w d = Ok (get_lfsr_seq w (ext_lfsr_next ext) (ext_lfsr_init ext))) /\
  (named name ["sys"] -> rng_new ext name w d = Ok (ext_randperm ext)) /\
  (~ named name ["sobol"; "race"; "lfsr"; "sys"; "rc"; "tc"; "race10"; "tc10"] -> rng_new ext name w d = Err AssertionError).
Proof.
  intros ext name w d. destruct (rng_new_names ext name w d) as (A & B & C & D & E & F).
  assert (Asc : map Qfloor (map (fun x => (inject_Z x / inject_Z (Z.of_nat (2 ^ w)) * inject_Z (Z.of_nat (2 ^ w)))%Q) (zrange (2 ^ w))) = zrange (2 ^ w)).
  { rewrite map_map. rewrite <- (map_id (zrange (2 ^ w))) at 2. apply map_ext. intros x. rewrite <- (Qfloor_Z x) at 2. apply Qfloor_comp.
    assert (P : ~ (inject_Z (Z.of_nat (2 ^ w)) == 0)%Q).
    { intros Z0. apply (proj1 (inject_Z_injective _ _)) in Z0. assert (Nat.pow 2 w <> 0)%nat by (apply PeanoNat.Nat.pow_nonzero; lia). lia. }
    field. exact P. }
  split; [exact A|]. split; [intros H; rewrite (B H); unfold rng_seq; rewrite Asc; reflexivity|].
  split; [intros H; rewrite (C H); unfold rng_seq; rewrite map_rev, Asc; reflexivity|].
  split; [intros H; rewrite (D H); unfold rng_seq; rewrite floor_ints; reflexivity|].
  split; [intros H; rewrite (E H); unfold rng_seq; rewrite floor_ints; reflexivity|exact F].
Qed.

(** The four names that make a layer temporal-coded. *)
Lemma tc_names : forall name k, rng_parse name = Ok k -> (is_tc k = true <-> named name ["race"; "tc"; "race10"; "tc10"]).
Proof.
  intros name k E. rewrite named_in by names. unfold rng_parse in E.
  repeat match type of E with context [(lower name =? ?n)%string] =>
    let L := fresh "L" in destruct (String.eqb_spec (lower name) n) as [L|?]; cbn [orb] in E;
    [injection E as <-; rewrite L; cbn [is_tc In]; split; intros H; [discriminate || tauto | intuition congruence]|] end;
  try discriminate.
Qed.
