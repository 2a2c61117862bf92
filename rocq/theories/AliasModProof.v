(** Proofs for C91: the modules one by one, by symbolic execution. *)
Require Import Verif.BaseLemmas Verif.AliasSpec Verif.AliasProof.
Open Scope Z_scope.

Lemma stepped_refl rs sh h objs : wf h -> okr h rs -> stepped rs sh h h objs [].
Proof.
  intros W R. constructor; try reflexivity; try assumption; try (intros; now left).
  - intros r Hr. left. now apply in_map.
  - intros o [].
Qed.
Lemma fresh_nil rs h : fresh_outs rs h h [].
Proof. split; [ constructor | intros o [] ]. Qed.

(** The primitives as functions on heaps. *)
Definition hall (d : data) (t : dty) (h : heap) : heap := fst (alloc d t h).
Definition hvw (o i : nat) (h : heap) : heap := fst (view o i h).
Definition hwr (o : nat) (d : data) (h : heap) : heap := fst (write o d h).
Definition hsd (o p : nat) (h : heap) : heap := fst (set_data o p h).
Lemma bind_look {B} o (f : data -> M B) h : bindM (look o) f h = f (rd h o) h.
Proof. reflexivity. Qed.
Lemma bind_alloc {B} d t (f : nat -> M B) h : bindM (alloc d t) f h = f (h_nobj h) (hall d t h).
Proof. reflexivity. Qed.
Lemma bind_view {B} o i (f : nat -> M B) h : bindM (view o i) f h = f (h_nobj h) (hvw o i h).
Proof. reflexivity. Qed.
Lemma bind_write {B} o d (f : unit -> M B) h : bindM (write o d) f h = f tt (hwr o d h).
Proof. reflexivity. Qed.
Lemma bind_set {B} o p (f : unit -> M B) h : bindM (set_data o p) f h = f tt (hsd o p h).
Proof. reflexivity. Qed.
Lemma bind_bind {A B C} (m : M A) (f : A -> M B) (g : B -> M C) h : bindM (bindM m f) g h = bindM m (fun a => bindM (f a) g) h.
Proof. unfold bindM. now destruct (m h). Qed.
Lemma bind_ret {A B} (a : A) (f : A -> M B) h : bindM (ret a) f h = f a h.
Proof. reflexivity. Qed.
Lemma type_same o t h : o_dt (h_obj h o) = t -> type_ o t h = (h, o).
Proof. intros <-. unfold type_. now destruct (o_dt (h_obj h o)). Qed.
Lemma type_other o t h : o_dt (h_obj h o) <> t -> type_ o t h = (hall (rd h o) t h, h_nobj h).
Proof. intros H. unfold type_. destruct (o_dt (h_obj h o)), t; cbn [dty_eqb]; try reflexivity; contradiction. Qed.

Lemma obj_hall d t h o : o <> h_nobj h -> h_obj (hall d t h) o = h_obj h o.
Proof. intros H; cbn. now apply upd_ne. Qed.
Lemma obj_hall_n d t h : h_obj (hall d t h) (h_nobj h) = {| o_st := h_nst h; o_row := None; o_dt := t |}.
Proof. cbn. now apply upd_eq. Qed.
Lemma obj_hvw p i h o : o <> h_nobj h -> h_obj (hvw p i h) o = h_obj h o.
Proof. intros H; cbn. now apply upd_ne. Qed.
Lemma obj_hvw_n p i h : h_obj (hvw p i h) (h_nobj h) = {| o_st := o_st (h_obj h p); o_row := Some i; o_dt := o_dt (h_obj h p) |}.
Proof. cbn. now apply upd_eq. Qed.
Lemma obj_hwr p d h o : h_obj (hwr p d h) o = h_obj h o.
Proof. reflexivity. Qed.
Lemma obj_hsd p q h o : o <> p -> h_obj (hsd p q h) o = h_obj h o.
Proof. intros H; cbn. now apply upd_ne. Qed.
Lemma obj_hsd_n p q h : h_obj (hsd p q h) p = h_obj h q.
Proof. cbn. now apply upd_eq. Qed.
Lemma hst_hall d t h s : s <> h_nst h -> h_st (hall d t h) s = h_st h s.
Proof. intros H; cbn. now apply upd_ne. Qed.
Lemma hst_hall_n d t h : h_st (hall d t h) (h_nst h) = d.
Proof. cbn. now apply upd_eq. Qed.
Lemma hst_hvw p i h s : h_st (hvw p i h) s = h_st h s.
Proof. reflexivity. Qed.
Lemma hst_hwr p d h s : s <> o_st (h_obj h p) -> h_st (hwr p d h) s = h_st h s.
Proof. intros H; cbn. now apply upd_ne. Qed.
Lemma hst_hwr_n p d h s : o_row (h_obj h p) = None -> s = o_st (h_obj h p) -> h_st (hwr p d h) s = d.
Proof. intros H ->; cbn. rewrite upd_eq by reflexivity. now rewrite H. Qed.
Lemma hst_hsd p q h s : h_st (hsd p q h) s = h_st h s.
Proof. reflexivity. Qed.
Lemma nobj_hall d t h : h_nobj (hall d t h) = S (h_nobj h). Proof. reflexivity. Qed.
Lemma nobj_hvw p i h : h_nobj (hvw p i h) = S (h_nobj h). Proof. reflexivity. Qed.
Lemma nobj_hwr p d h : h_nobj (hwr p d h) = h_nobj h. Proof. reflexivity. Qed.
Lemma nobj_hsd p q h : h_nobj (hsd p q h) = h_nobj h. Proof. reflexivity. Qed.
Lemma nst_hall d t h : h_nst (hall d t h) = S (h_nst h). Proof. reflexivity. Qed.
Lemma nst_hvw p i h : h_nst (hvw p i h) = h_nst h. Proof. reflexivity. Qed.
Lemma nst_hwr p d h : h_nst (hwr p d h) = h_nst h. Proof. reflexivity. Qed.
Lemma nst_hsd p q h : h_nst (hsd p q h) = h_nst h. Proof. reflexivity. Qed.
Lemma wf_hall d t h : wf h -> wf (hall d t h).
Proof.
  intros W o Ho. unfold st in *. rewrite nobj_hall in Ho. rewrite nst_hall. destruct (Nat.eq_dec o (h_nobj h)) as [-> | Ne].
  - rewrite obj_hall_n. cbn. lia.
  - rewrite obj_hall by exact Ne. pose proof (W o ltac:(lia)). unfold st in *. lia.
Qed.
Lemma wf_hvw p i h : wf h -> (p < h_nobj h)%nat -> wf (hvw p i h).
Proof.
  intros W Hp o Ho. unfold st in *. rewrite nobj_hvw in Ho. rewrite nst_hvw. destruct (Nat.eq_dec o (h_nobj h)) as [-> | Ne].
  - rewrite obj_hvw_n. exact (W p Hp).
  - rewrite obj_hvw by exact Ne. exact (W o ltac:(lia)).
Qed.
Lemma wf_hwr p d h : wf h -> wf (hwr p d h).
Proof. intros W o Ho. exact (W o Ho). Qed.
Lemma wf_hsd p q h : wf h -> (q < h_nobj h)%nat -> wf (hsd p q h).
Proof.
  intros W Hq o Ho. unfold st in *. destruct (Nat.eq_dec o p) as [-> | Ne]; [ rewrite obj_hsd_n; exact (W q Hq) | rewrite obj_hsd by exact Ne; exact (W o Ho) ].
Qed.

(** Simplification: counters, then objects, then contents; the side conditions are arithmetic after simplification. *)
(** [lia] splits on every disequality: they are used by the other tactics only. *)
Ltac flia := first [ solve [ repeat match goal with H : _ <> _ |- _ => clear H end; lia ] | assumption | apply not_eq_sym; assumption | solve [ congruence ] ].
Ltac side := solve [ assumption | apply not_eq_sym; assumption | flia ].
Ltac nums := repeat first [ rewrite nobj_hall | rewrite nobj_hvw | rewrite nobj_hwr | rewrite nobj_hsd | rewrite nst_hall | rewrite nst_hvw | rewrite nst_hwr | rewrite nst_hsd ].
Ltac objs_ :=
  repeat (nums; match goal with
  | |- context [h_obj (hwr ?p ?d ?h) ?o] => rewrite (obj_hwr p d h o)
  | |- context [h_obj (hall ?d ?t ?h) ?o] =>
      first [ rewrite (obj_hall d t h o) by (nums; side)
            | replace (h_obj (hall d t h) o) with {| o_st := h_nst h; o_row := None; o_dt := t |} by (symmetry; replace o with (h_nobj h) by (nums; flia); apply obj_hall_n) ]
  | |- context [h_obj (hvw ?p ?i ?h) ?o] =>
      first [ rewrite (obj_hvw p i h o) by (nums; side)
            | replace (h_obj (hvw p i h) o) with {| o_st := o_st (h_obj h p); o_row := Some i; o_dt := o_dt (h_obj h p) |}
                by (symmetry; replace o with (h_nobj h) by (nums; flia); apply obj_hvw_n) ]
  | |- context [h_obj (hsd ?p ?q ?h) ?o] => first [ rewrite (obj_hsd p q h o) by (nums; side) | rewrite (obj_hsd_n p q h) ]
  end); nums; cbn [o_st o_row o_dt].
Ltac conts :=
  objs_;
  repeat (nums; match goal with
  | |- context [h_st (hvw ?p ?i ?h) ?s] => rewrite (hst_hvw p i h s)
  | |- context [h_st (hsd ?p ?q ?h) ?s] => rewrite (hst_hsd p q h s)
  | |- context [h_st (hall ?d ?t ?h) ?s] =>
      first [ rewrite (hst_hall d t h s) by (nums; side)
            | replace (h_st (hall d t h) s) with d by (symmetry; replace s with (h_nst h) by (nums; flia); apply hst_hall_n) ]
  | |- context [h_st (hwr ?p ?d ?h) ?s] =>
      first [ rewrite (hst_hwr p d h s) by (objs_; side) | rewrite (hst_hwr_n p d h s) by (objs_; side) ]
  end).
(** The content of o in a built-up heap. *)
Lemma rd_hall d t h o : o <> h_nobj h -> o_st (h_obj h o) <> h_nst h -> rd (hall d t h) o = rd h o.
Proof. intros H1 H2. unfold rd. rewrite obj_hall by exact H1. now rewrite hst_hall by exact H2. Qed.
Lemma rd_hall_n d t h o : o = h_nobj h -> rd (hall d t h) o = d.
Proof. intros ->. unfold rd. rewrite obj_hall_n. cbn [o_row o_st]. apply hst_hall_n. Qed.
Lemma rd_hvw p i h o : o <> h_nobj h -> rd (hvw p i h) o = rd h o.
Proof. intros H1. unfold rd. rewrite obj_hvw by exact H1. reflexivity. Qed.
Lemma rd_hvw_n p i h o : o = h_nobj h -> o_row (h_obj h p) = None -> rd (hvw p i h) o = Int (nth i (toL (rd h p)) 0).
Proof. intros -> H. unfold rd. rewrite obj_hvw_n. cbn [o_row o_st]. rewrite H. reflexivity. Qed.
Lemma rd_hwr p d h o : o_st (h_obj h o) <> o_st (h_obj h p) -> rd (hwr p d h) o = rd h o.
Proof. intros H. unfold rd. rewrite obj_hwr. now rewrite hst_hwr by exact H. Qed.
Lemma rd_hwr_n p d h o : o_st (h_obj h o) = o_st (h_obj h p) -> o_row (h_obj h p) = None -> o_row (h_obj h o) = None -> rd (hwr p d h) o = d.
Proof. intros H1 H2 H3. unfold rd. rewrite obj_hwr, H3. now apply hst_hwr_n. Qed.
Lemma rd_hsd p q h o : o <> p -> rd (hsd p q h) o = rd h o.
Proof. intros H. unfold rd. now rewrite obj_hsd by exact H. Qed.
Lemma rd_hsd_n p q h : rd (hsd p q h) p = rd h q.
Proof. unfold rd. now rewrite obj_hsd_n. Qed.
Ltac oside := objs_; side.
Ltac rds :=
  repeat match goal with
  | |- context [rd (hall ?d ?t ?h) ?o] => first [ rewrite (rd_hall_n d t h o) by (nums; reflexivity) | rewrite (rd_hall d t h o) by oside ]
  | |- context [rd (hvw ?p ?i ?h) ?o] => first [ rewrite (rd_hvw_n p i h o) by oside | rewrite (rd_hvw p i h o) by oside ]
  | |- context [rd (hwr ?p ?d ?h) ?o] => first [ rewrite (rd_hwr_n p d h o) by oside | rewrite (rd_hwr p d h o) by oside ]
  | |- context [rd (hsd ?p ?q ?h) ?o] => first [ rewrite (rd_hsd_n p q h) | rewrite (rd_hsd p q h o) by oside ]
  end.
Lemma dty_dec (a b : dty) : {a = b} + {a <> b}.
Proof. decide equality. Qed.
Lemma bind_type_same {B} o t (f : nat -> M B) h : o_dt (h_obj h o) = t -> bindM (type_ o t) f h = f o h.
Proof. intros H. unfold bindM. now rewrite type_same by exact H. Qed.
Lemma bind_type_other {B} o t (f : nat -> M B) h : o_dt (h_obj h o) <> t -> bindM (type_ o t) f h = f (h_nobj h) (hall (rd h o) t h).
Proof. intros H. unfold bindM. now rewrite type_other by exact H. Qed.
(** One statement of the program. *)
Ltac stm :=
  lazymatch goal with
  | |- context [bindM (bindM ?m ?f) ?g ?h] => rewrite (bind_bind m f g h)
  | |- context [bindM (ret ?a) ?f ?h] => rewrite (bind_ret a f h)
  | |- context [bindM (look ?o) ?f ?h] =>
      rewrite (bind_look o f h);
      let E := fresh "E" in
      eassert (E : rd h o = _) by (rds; reflexivity);
      let d := match type of E with _ = ?d => d end in
      try rewrite E; clear E; tryif is_var d then idtac else (let v := fresh "v" in let Ev := fresh "Ev" in remember d as v eqn:Ev)
  | |- context [bindM (alloc ?d ?t) ?f ?h] => rewrite (bind_alloc d t f h)
  | |- context [bindM (view ?o ?i) ?f ?h] => rewrite (bind_view o i f h)
  | |- context [bindM (write ?o ?d) ?f ?h] => rewrite (bind_write o d f h)
  | |- context [bindM (set_data ?o ?p) ?f ?h] => rewrite (bind_set o p f h)
  | |- context [bindM (type_ ?o ?t) ?f ?h] =>
      let D := fresh "D" in
      eassert (D : o_dt (h_obj h o) = _) by (objs_; reflexivity);
      let d := match type of D with _ = ?d => d end in
      let T := fresh "T" in
      destruct (dty_dec d t) as [T | T];
      [ rewrite (bind_type_same o t f h) by congruence
      | rewrite (bind_type_other o t f h) by congruence; let E := fresh "E" in eassert (E : rd h o = _) by (rds; reflexivity); try rewrite E; clear E ];
      clear D
  end; cbv beta.

Ltac pickin := cbn [In app map]; repeat first [ left; reflexivity | left; assumption | right ].
Ltac split_or :=
  repeat match goal with
  | H : ~ (_ \/ _) |- _ => apply Decidable.not_or in H; destruct H
  | H : ~ False |- _ => clear H
  | H : _ \/ _ |- _ => destruct H
  | H : False |- _ => destruct H
  end.
Ltac wfs := repeat first [ assumption | apply wf_hall | apply wf_hwr | apply wf_hsd; [| nums; flia ] | apply wf_hvw; [| nums; flia ] ].
Ltac nodups := repeat (apply NoDup_cons; [ cbn [In]; intros ?; split_or; flia |]); apply NoDup_nil.
Ltac fin_stepped :=
  constructor;
  [ nums; flia
  | nums; flia
  | wfs
  | split; [ cbn [map]; unfold st; objs_; nodups
           | let r := fresh "r" in let H := fresh "H" in intros r H; cbn [In] in H; split_or; subst r; (split; [ nums; flia | objs_; side ]) ]
  | let o := fresh "o" in intros o ? ? ?; cbn [In] in *; split_or; objs_; reflexivity
  | let s := fresh "s" in intros s ? ?; cbn [map In] in *; unfold st in *; split_or; conts; reflexivity
  | let r := fresh "r" in let H := fresh "H" in intros r H; cbn [In] in H; split_or; subst r; unfold st; cbn [map In]; objs_; first [ right; flia | left; solve [ pickin ] ]
  | let o := fresh "o" in let H := fresh "H" in intros o H; cbn [In] in H; split_or; subst o;
      first [ left; objs_; reflexivity | right; split; [ nums; flia | unfold st; cbn [map In]; objs_; intros ?; split_or; flia ]]
  | let o := fresh "o" in let H := fresh "H" in intros o H; cbn [In] in H; split_or; subst o; (split; [ nums; flia |]);
      first [ left; solve [ pickin ] | right; left; solve [ pickin ]
            | right; right; split; [ nums; flia | unfold st; cbn [map In]; objs_; intros ?; split_or; flia ]]
  ].
Ltac fin_fresh :=
  split; [ cbn [map]; unfold st; objs_; nodups
         | let o := fresh "o" in let H := fresh "H" in intros o H; cbn [In] in H; split_or; subst o; (split; [ nums; flia |]); unfold st; cbn [map In]; objs_;
           first [ right; flia | left; solve [ pickin ] ]].
Ltac fin_val := let s := fresh "s" in intros s ->; eexists; split; cbn [map]; rds; subst; reflexivity.
(** What is known of the registers and of the tensors passed. *)
Ltac facts rs xs :=
  match goal with
  | W : wf ?h, R : okr ?h _, A : forall o, In o _ -> away ?h _ o |- _ =>
      let N := fresh "N" in let R' := fresh "R" in destruct R as [N R'];
      let rec regs l := lazymatch l with
        | ?r :: ?l' =>
            let L := fresh "L" in let Ro := fresh "Ro" in let Wr := fresh "Wr" in
            destruct (R' r ltac:(pickin)) as [L Ro]; pose proof (W r L) as Wr; unfold st in Wr; regs l'
        | _ => idtac end in
      regs rs;
      let rec ins l := lazymatch l with
        | ?x :: ?l' =>
            let L := fresh "L" in let Ax := fresh "Ax" in let Wx := fresh "Wx" in
            destruct (A x ltac:(pickin)) as [L Ax]; pose proof (W x L) as Wx; unfold st in Wx; cbn [map In] in Ax; unfold st in Ax; ins l'
        | _ => idtac end in
      ins xs;
      cbn [map] in N; unfold st in N;
      repeat match goal with H : NoDup (_ :: _) |- _ => apply NoDup_cons_iff in H; destruct H as [? H]; cbn [In] in * end;
      clear R' A; split_or
  end.
Ltac idle := lazymatch goal with |- _ /\ _ => idtac end; split; [ reflexivity | split; [ reflexivity | split; [ now apply stepped_refl |
  first [ split; [| apply fresh_nil ] | idtac ]; let s := fresh in let E := fresh in intros s E; exists s; split; [ reflexivity | exact E ]]]].
Ltac fin1 := cbn [ret fst snd]; split; [ reflexivity | split; [ reflexivity | split; [ fin_stepped | first [ split; [ fin_val | fin_fresh ] | fin_val ]]]].
Ltac fin := first [ solve [ exfalso; congruence ] | fin1 ].
Ltac fin_newed :=
  constructor;
  [ nums; flia
  | nums; flia
  | wfs
  | split; [ cbn [map]; unfold st; objs_; nodups
           | let r := fresh "r" in let H := fresh "H" in intros r H; cbn [In] in H; split_or; subst r; (split; [ nums; flia | objs_; side ]) ]
  | let o := fresh "o" in intros o ?; objs_; reflexivity
  | let s := fresh "s" in intros s ?; conts; reflexivity
  | let r := fresh "r" in let H := fresh "H" in intros r H; cbn [In] in H; split_or; subst r; unfold st; objs_; flia
  | let o := fresh "o" in let H := fresh "H" in intros o H; cbn [In] in H; split_or; subst o; (split; [ nums; flia |]);
      (split; [ nums; flia | unfold st; cbn [map In]; objs_; intros ?; split_or; flia ])
  ].
Ltac newt := cbn [ret fst snd]; split; [ fin_newed | cbn [map]; rds; subst; reflexivity ].

Definition of_hd (_ : nat) (ds : list data) (s : Z) : Prop := s = toZ (hd (Int 0) ds).
Lemma bind_ret2 {A} (m : M A) h : bindM m ret h = m h.
Proof. unfold bindM, ret. now destruct (m h). Qed.
Lemma bi2uni_new_ok d2 bt stt : new_ok (bi2uni_py d2 bt stt) (bi2uni_pure d2) (fun r => [r]) (fun _ => []) of_hd.
Proof. intros objs h W A. cbn [pm_new bi2uni_py pm_attr]. unfold bi2uni_new. rewrite <- (bind_ret2 (alloc _ _)). repeat stm. unfold of_hd. newt. Qed.
Lemma bi2uni_fwd_ok d2 bt stt : fwdf_ok (bi2uni_py d2 bt stt) (bi2uni_pure d2) (fun r => [r]) (fun _ => []) of_hd.
Proof.
  intros a arg objs h W R A. cbn [pm_attr bi2uni_py] in a, R, A |- *. unfold of_hd.
  destruct objs as [| x [| y l]]; cbn [pm_fwd bi2uni_py one_in two_in ret]; try idle.
  facts [a] [x]. unfold bi2uni_fwd, keep, keep2. repeat stm. all: fin.
Qed.
Lemma uni2bi_new_ok d2 bt stt : new_ok (uni2bi_py d2 bt stt) (uni2bi_pure d2) (fun r => [r]) (fun _ => []) of_hd.
Proof. intros objs h W A. cbn [pm_new uni2bi_py pm_attr]. unfold uni2bi_new. rewrite <- (bind_ret2 (alloc _ _)). repeat stm. unfold of_hd. newt. Qed.
Lemma uni2bi_fwd_ok d2 bt stt : fwdf_ok (uni2bi_py d2 bt stt) (uni2bi_pure d2) (fun r => [r]) (fun _ => []) of_hd.
Proof.
  intros a arg objs h W R A. cbn [pm_attr uni2bi_py] in a, R, A |- *. unfold of_hd.
  destruct objs as [| x [| y l]]; cbn [pm_fwd uni2bi_py one_in two_in ret]; try idle.
  facts [a] [x]. unfold uni2bi_fwd, keep, keep2. repeat stm. all: fin.
Qed.
Lemma relu_new_ok d bt stt : new_ok (relu_py d bt stt) (relu_pure d) (fun r => [r]) (fun _ => []) of_hd.
Proof. intros objs h W A. cbn [pm_new relu_py pm_attr]. unfold relu_new. rewrite <- (bind_ret2 (alloc _ _)). repeat stm. unfold of_hd. newt. Qed.
Lemma relu_fwd_ok d bt stt : fwdf_ok (relu_py d bt stt) (relu_pure d) (fun r => [r]) (fun _ => []) of_hd.
Proof.
  intros a arg objs h W R A. cbn [pm_attr relu_py] in a, R, A |- *. unfold of_hd.
  destruct objs as [| x [| y l]]; cbn [pm_fwd relu_py one_in two_in ret]; try idle.
  facts [a] [x]. unfold relu_fwd, keep, keep2. repeat stm. all: fin.
Qed.
Lemma signabs_new_ok d bt stt : new_ok (signabs_py d bt stt) (signabs_pure d) (fun r => [r]) (fun _ => []) of_hd.
Proof. intros objs h W A. cbn [pm_new signabs_py pm_attr]. unfold signabs_new. rewrite <- (bind_ret2 (alloc _ _)). repeat stm. unfold of_hd. newt. Qed.
Lemma signabs_fwd_ok d bt stt : fwdf_ok (signabs_py d bt stt) (signabs_pure d) (fun r => [r]) (fun _ => []) of_hd.
Proof.
  intros a arg objs h W R A. cbn [pm_attr signabs_py] in a, R, A |- *. unfold of_hd.
  destruct objs as [| x [| y l]]; cbn [pm_fwd signabs_py one_in two_in ret]; try idle.
  facts [a] [x]. unfold signabs_fwd, keep, keep2. repeat stm. all: fin.
Qed.
Lemma sync_new_ok d bt stt : new_ok (sync_py d bt stt) (sync_pure d) (fun r => [r]) (fun _ => []) of_hd.
Proof. intros objs h W A. cbn [pm_new sync_py pm_attr]. unfold sync_new. rewrite <- (bind_ret2 (alloc _ _)). repeat stm. unfold of_hd. newt. Qed.
Lemma sync_fwd_ok d bt stt : fwd_ok (sync_py d bt stt) (sync_pure d) (fun r => [r]) (fun _ => []) of_hd.
Proof.
  intros a arg objs h W R A. cbn [pm_attr sync_py] in a, R, A |- *. unfold of_hd.
  destruct objs as [| x [| z [| y l]]]; cbn [pm_fwd sync_py one_in two_in ret]; try idle.
  facts [a] [x; z]. unfold sync_fwd, keep, keep2. repeat stm. all: fin.
Qed.
Lemma jkff_new_ok stt : new_ok (jkff_py stt) (jkff_pure) (fun r => [r]) (fun _ => []) of_hd.
Proof. intros objs h W A. cbn [pm_new jkff_py pm_attr]. unfold jkff_new. rewrite <- (bind_ret2 (alloc _ _)). repeat stm. unfold of_hd. newt. Qed.
Lemma jkff_fwd_ok stt : stt <> Int8 -> fwdf_ok (jkff_py stt) (jkff_pure) (fun r => [r]) (fun _ => []) of_hd.
Proof.
  intros NI. intros a arg objs h W R A. cbn [pm_attr jkff_py] in a, R, A |- *. unfold of_hd.
  destruct objs as [| x [| z [| y l]]]; cbn [pm_fwd jkff_py one_in two_in ret]; try idle.
  facts [a] [x; z]. unfold jkff_fwd, keep, keep2. repeat stm. all: fin.
Qed.

(** ShiftReg. *)
Definition sr_regs (a : nat * bool) : list nat := [fst a].
Definition sr_rel (entry : nat) (a : nat * bool) (ds : list data) (s : list Z) : Prop :=
  s = if snd a then shiftreg_init entry else toL (hd (Int 0) ds).
Lemma sr_new_ok entry stt : new_ok (sr_py entry stt) (sr_pure entry) sr_regs (fun _ => []) (sr_rel entry).
Proof. intros objs h W A. cbn [pm_new sr_py pm_attr]. unfold sr_new. repeat stm. unfold sr_rel, sr_regs. newt. Qed.
Ltac sr_val := let s := fresh "s" in intros s ->; eexists; split; cbn [map]; rds;
  [ subst; cbn [pu_step sr_pure fst snd map]; unfold shiftreg_step, nthZ; rewrite Nat2Z.id; reflexivity | subst; reflexivity ].
Lemma sr_fwd_ok entry stt : fwdf_ok (sr_py entry stt) (sr_pure entry) sr_regs (fun _ => []) (sr_rel entry).
Proof.
  intros [a first] index objs h W R A. cbn [pm_attr sr_py] in R, A |- *. unfold sr_rel, sr_regs in *. cbn [fst snd] in *.
  destruct objs as [| x [| z [| y l]]]; cbn [pm_fwd sr_py ret]; try idle.
  - facts [a] [x]. unfold sr_fwd. destruct first; cbn [fst snd]; repeat (stm; cbn [fst snd]).
    all: cbn [ret fst snd]; split; [ reflexivity | split; [ reflexivity | split; [ fin_stepped | split; [ sr_val | fin_fresh ]]]].
  - facts [a] [x; z]. unfold sr_fwd. destruct first; cbn [fst snd]; repeat (stm; cbn [fst snd]).
    all: cbn [ret fst snd]; split; [ reflexivity | split; [ reflexivity | split; [ fin_stepped | split; [ sr_val | fin_fresh ]]]].
Qed.
