(** Proofs for C91 and C92, continued: FSUMul, FSUAdd, Correlation, ProgError, the layers. *)
Require Import Verif.BaseLemmas Verif.AliasSpec Verif.AliasProof Verif.AliasModProof.
Open Scope Z_scope.

(** FSUMul. *)
Definition mul_regs (a : option (nat * nat * nat)) : list nat := match a with None => [] | Some (b, i, j) => [b; i; j] end.
Definition mul_rel (a : option (nat * nat * nat)) (ds : list data) (s : option (Z * (Z * Z))) : Prop :=
  s = match a, ds with Some _, [b; i; j] => Some (hd 0 (toL b), (toZ i, toZ j)) | _, _ => None end.
Lemma newed_refl h : wf h -> newed [] [] h h.
Proof. intros W. constructor; try reflexivity; try assumption; try (intros ? []). split; [ constructor | intros r [] ]. Qed.
Lemma mul_new_ok m w rng rt stt : new_ok (mul_py m w rng rt stt) (mul_pure m w rng) mul_regs (fun _ => []) mul_rel.
Proof.
  intros objs h W A. cbn [pm_new mul_py pm_attr].
  destruct objs as [| x [| y l]]; try (cbn [ret]; split; [ now apply newed_refl | reflexivity ]).
  pose proof (A x (or_introl eq_refl)) as L. pose proof (W x L) as Wx. unfold st in Wx.
  unfold mul_new, bingen_new. destruct m; repeat (stm; cbn [fst snd]). all: unfold mul_rel, mul_regs.
  all: first [ solve [ exfalso; congruence ] | cbn [ret fst snd]; split; [ fin_newed |] ].
  all: cbn [map]; rds; subst; cbn [pu_new mul_pure map toL toQs].
  all: rewrite !map_map; reflexivity.
Qed.
Ltac stms := repeat (stm; cbn [fst snd]).
Lemma mul_fwd_ok m w rng rt stt : fwdf_ok (mul_py m w rng rt stt) (mul_pure m w rng) mul_regs (fun _ => []) mul_rel.
Proof.
  intros [[[b i] j] |] arg objs h W R A; cbn [pm_attr mul_py] in R, A |- *; unfold mul_rel, mul_regs in *; cbn [fst snd] in *;
    [| cbn [pm_fwd mul_py ret]; split; [ reflexivity | split; [ reflexivity | split; [ now apply stepped_refl | split; [ intros s ->; exists None; now split | apply fresh_nil ]]]] ].
  destruct objs as [| x [| y l]]; cbn [pm_fwd mul_py one_in ret];
    try (split; [ reflexivity | split; [ reflexivity | split; [ now apply stepped_refl | split; [ intros s ->; eexists; split; reflexivity | apply fresh_nil ]]]]).
  facts [b; i; j] [x]. unfold mul_fwd, keep. destruct m; stms. all: fin.
Qed.

(** FSUAdd. *)
Definition add_attr : Type := ((nat * nat * nat) * (option Z * bool)).
Definition add_regs (a : add_attr) : list nat := let '(sc, off, acc) := fst a in [sc; off; acc].
Definition add_rel (a : add_attr) (ds : list data) (s : fsuadd_st) : Prop :=
  s = {| fs_entry := fst (snd a); fs_scale := toQ (nth 0 ds (Int 0)); fs_offset := toQ (nth 1 ds (Int 0)); fs_acc := toQ (nth 2 ds (Int 0));
         fs_first := snd (snd a) |}.
Lemma add_new_ok c bt stt : new_ok (add_py c bt stt) (add_pure c) add_regs (fun _ => []) add_rel.
Proof. intros objs h W A. cbn [pm_new add_py pm_attr]. unfold add_new. stms. unfold add_rel, add_regs. newt. Qed.
Lemma add_fwd_ok c bt stt : fwdf_ok (add_py c bt stt) (add_pure c) add_regs (fun _ => []) add_rel.
Proof.
  intros [[[sc off] acc] [e first]] arg objs h W R A; cbn [pm_attr add_py] in R, A |- *; unfold add_rel, add_regs in *; cbn [fst snd] in *.
  destruct objs as [| x [| y l]]; cbn [pm_fwd add_py one_in ret]; try idle.
  facts [sc; off; acc] [x]. unfold add_fwd. destruct first; cbn [fst snd]; [ destruct (fa_mode c) eqn:Em |]; stms.
  all: cbn [ret fst snd]; split; [ reflexivity | split; [ reflexivity | split; [ fin_stepped | split; [| fin_fresh ]]]].
  all: intros s ->; cbn [map nth]; rds; subst;
    cbn [pu_step add_pure snd]; unfold fsuadd_step, fsuadd_call, fsuadd_resolve, acc_step; cbn [fs_first fs_entry fs_scale fs_offset fs_acc];
    rewrite ?Em; cbn [toZ toQ toL toQs]; eexists; split; reflexivity.
Qed.

(** Correlation. *)
Definition corr_rl (r : corr_regs) : list nat := [cr_d r; cr_c r; cr_b r; cr_a r; cr_len r; cr_in1d r].
Definition corr_rel (_ : corr_regs) (ds : list data) (s : corr_st) : Prop :=
  s = {| co_d := toZ (nth 0 ds (Int 0)); co_c := toZ (nth 1 ds (Int 0)); co_b := toZ (nth 2 ds (Int 0)); co_a := toZ (nth 3 ds (Int 0));
         co_len := toZ (nth 4 ds (Int 0)); co_in1d := toZ (nth 5 ds (Int 0)) |}.
Lemma corr_new_ok : new_ok corr_py corr_pure corr_rl (fun _ => []) corr_rel.
Proof.
  intros objs h W A. cbn [pm_new corr_py pm_attr]. unfold corr_new. stms. unfold corr_rel, corr_rl. cbn [ret cr_d cr_c cr_b cr_a cr_len cr_in1d].
  split; [ fin_newed | cbn [map nth]; rds; reflexivity ].
Qed.
Ltac corr_fin :=
  cbn [ret fst snd]; split; [ reflexivity | split; [ reflexivity | split; [ fin_stepped | split; [| fin_fresh ]]]];
  let s := fresh "s" in intros s ->; cbn [map nth]; rds; subst; cbn [pu_step corr_pure fst snd]; unfold corr_monitor;
  cbn [toZ co_d co_c co_b co_a co_len co_in1d]; eexists; split; reflexivity.
Lemma corr_fwd_ok : fwdf_ok corr_py corr_pure corr_rl (fun _ => []) corr_rel.
Proof.
  intros [d c b a len i1] arg objs h W R A; cbn [pm_attr corr_py] in R, A |- *; unfold corr_rel, corr_rl in *;
    cbn [cr_d cr_c cr_b cr_a cr_len cr_in1d] in *.
  destruct arg.
  - destruct objs as [| x [| z [| y l]]]; cbn [pm_fwd corr_py ret]; try idle.
    + facts [d; c; b; a; len; i1] [x]. unfold corr_mon, add_to; cbn [cr_d cr_c cr_b cr_a cr_len cr_in1d]. stms. corr_fin.
    + facts [d; c; b; a; len; i1] [x; z]. unfold corr_mon, add_to; cbn [cr_d cr_c cr_b cr_a cr_len cr_in1d]. stms. corr_fin.
  - destruct objs as [| x l]; cbn [pm_fwd corr_py ret]; try idle.
    facts [d; c; b; a; len; i1] (@nil nat). unfold corr_fwd, keep; cbn [cr_d cr_c cr_b cr_a cr_len cr_in1d]. stms. corr_fin.
Qed.

(** ProgError: pp and pe can be reached by the client once they are returned. *)
Definition pe_rl (a : option pe_regs) : list nat := match a with None => [] | Some r => [pr_source r; pr_cycle r; pr_one r] end.
Definition pe_sh (a : option pe_regs) : list nat := match a with None => [] | Some r => [pr_pp r; pr_pe r] end.
Definition pe_rel (scale : Q) (a : option pe_regs) (ds : list data) (s : option (Q * pe_st)) : Prop :=
  match a, s with
  | None, None => True
  | Some r, Some (src, t) => pr_pp r <> pr_pe r /\ nth 0 ds (Int 0) = Rat (Some (pe_source scale src)) /\
      t = {| pe_cycle := toZ (nth 1 ds (Int 0)); pe_one := toZ (nth 2 ds (Int 0)) |}
  | _, _ => False
  end.
Lemma progerr_new_ok m scale : new_ok (progerr_py m scale) (progerr_pure m scale) pe_rl pe_sh (pe_rel scale).
Proof.
  intros objs h W A. cbn [pm_new progerr_py pm_attr].
  destruct objs as [| x [| y l]]; try (cbn [ret]; split; [ now apply newed_refl | exact I ]).
  pose proof (A x (or_introl eq_refl)) as L. pose proof (W x L) as Wx. unfold st in Wx.
  unfold progerr_new. stms. unfold pe_rel, pe_rl, pe_sh. cbn [ret pr_source pr_cycle pr_one pr_pp pr_pe].
  split; [ fin_newed |]. cbn [map nth pu_new progerr_pure]. rds. subst. repeat split. nums. lia.
Qed.
Lemma progerr_fwd_ok m scale : fwd_ok (progerr_py m scale) (progerr_pure m scale) pe_rl pe_sh (pe_rel scale).
Proof.
  intros [[src cyc one pp pe] |] arg objs h W R A; cbn [pm_attr progerr_py] in R, A |- *; unfold pe_rel, pe_rl, pe_sh in *;
    cbn [pr_source pr_cycle pr_one pr_pp pr_pe] in *.
  2:{ cbn [pm_fwd progerr_py ret]. split; [ reflexivity | split; [ reflexivity | split; [ now apply stepped_refl |]]].
      intros [[q t] |]; [ intros [] |]. intros _. exists None. now split. }
  destruct arg.
  - destruct objs as [| x [| y l]]; cbn [pm_fwd progerr_py one_in ret];
      try (split; [ reflexivity | split; [ reflexivity | split; [ now apply stepped_refl |]]];
           intros [[q t] |] E; [| destruct E ]; eexists; split; [ reflexivity | exact E ]).
    facts [src; cyc; one] [x; pp; pe]. unfold progerr_mon, add_to; cbn [pr_source pr_cycle pr_one pr_pp pr_pe]. stms.
    cbn [ret fst snd]; split; [ reflexivity | split; [ reflexivity | split; [ fin_stepped |]]].
    intros [[q t] |] E; [| destruct E ]. destruct E as [E1 [E2 ->]]. cbn [map nth] in E2 |- *. eexists. split; [ reflexivity |].
    split; [ exact E1 |]. split; rds; [ exact E2 |]. subst. reflexivity.
  - destruct objs as [| x l]; cbn [pm_fwd progerr_py one_in ret];
      try (split; [ reflexivity | split; [ reflexivity | split; [ now apply stepped_refl |]]];
           intros [[q t] |] E; [| destruct E ]; eexists; split; [ reflexivity | exact E ]).
    facts [src; cyc; one] [pp; pe]. unfold progerr_fwd, keep2; cbn [pr_source pr_cycle pr_one pr_pp pr_pe].
    destruct (Nat.eq_dec pp pe) as [<- | Np].
    + destruct m; stms; cbn [ret fst snd]; (split; [ reflexivity | split; [ reflexivity | split; [ fin_stepped |]]]);
        intros [[q t] |] E; destruct E; contradiction.
    + destruct m; stms; cbn [ret fst snd]; (split; [ reflexivity | split; [ reflexivity | split; [ fin_stepped |]]]);
        (intros [[q t] |] E; [| destruct E ]); destruct E as [_ [E2 ->]]; cbn [map nth] in E2 |- *;
        (exists (Some (q, {| pe_cycle := toZ (rd h cyc); pe_one := toZ (rd h one) |})); split; [| split; [ exact Np | split; rds; [ exact E2 | reflexivity ]]]);
        rds; subst; rewrite E2; cbn [pu_step progerr_pure fst snd]; unfold pe_forward; cbn [pe_cycle pe_one];
        destruct (toZ (rd h cyc) =? 0); cbn [oq toQ]; reflexivity.
Qed.

(** Layers with weights of their own. *)
Definition lay_regs (a : option nat) : list nat := match a with None => [] | Some w => [w] end.
Definition lay_rel (a : option nat) (ds : list data) (s : option data) : Prop :=
  s = match a with None => None | Some _ => Some (hd (Int 0) ds) end.
Lemma fsu_new_ok m width rt f cm meth bw :
  new_ok (layer_py (fsu_new m width rt) f cm meth bw) (own_pure (fsu_enc m width) f cm meth bw) lay_regs (fun _ => []) lay_rel.
Proof.
  intros objs h W A. cbn [pm_new layer_py pm_attr].
  destruct objs as [| x [| y l]]; try (cbn [ret]; split; [ now apply newed_refl | reflexivity ]).
  pose proof (A x (or_introl eq_refl)) as L. pose proof (W x L) as Wx. unfold st in Wx.
  unfold fsu_new, bingen_new. destruct m; stms. all: unfold lay_rel, lay_regs.
  all: first [ solve [ exfalso; congruence ] | cbn [ret fst snd]; split; [ fin_newed |] ].
  all: cbn [map]; rds; subst; cbn [pu_new own_pure map toL toQs hd]; unfold fsu_enc; rewrite !map_map; reflexivity.
Qed.
Lemma fsu_fwd_ok new enc f cm meth bw : fwdf_ok (layer_py new f cm meth bw) (own_pure enc f cm meth bw) lay_regs (fun _ => []) lay_rel.
Proof.
  intros [w |] arg objs h W R A; cbn [pm_attr layer_py] in R, A |- *; unfold lay_rel, lay_regs in *.
  2:{ cbn [pm_fwd layer_py ret]. split; [ reflexivity | split; [ reflexivity | split; [ now apply stepped_refl |]]].
      split; [| apply fresh_nil ]. intros s ->. exists None. now split. }
  destruct arg.
  - destruct objs as [| x [| y l]]; cbn [pm_fwd layer_py one_in ret];
      try (split; [ reflexivity | split; [ reflexivity | split; [ now apply stepped_refl | split; [ intros s ->; eexists; split; reflexivity | apply fresh_nil ]]]]).
    facts [w] [x]. unfold layer_fwd, keep. stms. fin.
  - cbn [pm_fwd layer_py]. facts [w] (@nil nat). unfold clip_weight. stms. fin.
Qed.
