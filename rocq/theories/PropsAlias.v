(** C91 and C92: what a client may rely on when tensors are references. *)
Require Import Verif.AliasSpec.
Require Import Verif.AliasProof Verif.AliasModProof Verif.AliasMod2Proof Verif.AliasLayerProof.
Open Scope Z_scope.

(** C91. The registers of a module cannot be reached through anything the client holds. *)
Theorem C91_bi2uni : forall d2 btype stype, isolated (bi2uni_py d2 btype stype) (bi2uni_pure d2).
Proof. intros. exact (isolated_ok _ _ _ _ _ (bi2uni_new_ok d2 btype stype) (bi2uni_fwd_ok d2 btype stype) (fun _ => eq_refl)). Qed.
Print Assumptions C91_bi2uni.
Theorem C91_uni2bi : forall d2 btype stype, isolated (uni2bi_py d2 btype stype) (uni2bi_pure d2).
Proof. intros. exact (isolated_ok _ _ _ _ _ (uni2bi_new_ok d2 btype stype) (uni2bi_fwd_ok d2 btype stype) (fun _ => eq_refl)). Qed.
Print Assumptions C91_uni2bi.
Theorem C91_signabs : forall d btype stype, isolated (signabs_py d btype stype) (signabs_pure d).
Proof. intros. exact (isolated_ok _ _ _ _ _ (signabs_new_ok d btype stype) (signabs_fwd_ok d btype stype) (fun _ => eq_refl)). Qed.
Print Assumptions C91_signabs.
Theorem C91_relu : forall d btype stype, isolated (relu_py d btype stype) (relu_pure d).
Proof. intros. exact (isolated_ok _ _ _ _ _ (relu_new_ok d btype stype) (relu_fwd_ok d btype stype) (fun _ => eq_refl)). Qed.
Print Assumptions C91_relu.
Theorem C91_shiftreg : forall entry stype, isolated (sr_py entry stype) (sr_pure entry).
Proof. intros. exact (isolated_ok _ _ _ _ _ (sr_new_ok entry stype) (sr_fwd_ok entry stype) (fun _ => eq_refl)). Qed.
Print Assumptions C91_shiftreg.
Theorem C91_mul : forall m width rng rtype stype, isolated (mul_py m width rng rtype stype) (mul_pure m width rng).
Proof. intros. exact (isolated_ok _ _ _ _ _ (mul_new_ok m width rng rtype stype) (mul_fwd_ok m width rng rtype stype) (fun _ => eq_refl)). Qed.
Print Assumptions C91_mul.
Theorem C91_add : forall c btype stype, isolated (add_py c btype stype) (add_pure c).
Proof. intros. exact (isolated_ok _ _ _ _ _ (add_new_ok c btype stype) (add_fwd_ok c btype stype) (fun _ => eq_refl)). Qed.
Print Assumptions C91_add.
Theorem C91_corr : isolated corr_py corr_pure.
Proof. exact (isolated_ok _ _ _ _ _ corr_new_ok corr_fwd_ok (fun _ => eq_refl)). Qed.
Print Assumptions C91_corr.

(** The client overwrites its own input and the last result between the calls; the multiplier still answers for 3/4, which it was built
    with, although that tensor is overwritten too. *)
Definition script_mul : list (act unit) :=
  [Call tt [1%nat]; Do (CWrite 2 (Int 7)); Do (CWrite 0 (Rat (Some 0%Q))); Call tt [1%nat]; Do (CPoint 2 1); Do (CWrite 1 (Int 0)); Call tt [1%nat]; Do (CWrite 1 (Int 1)); Call tt [1%nat]; Call tt [1%nat]].
Definition pre_mul : list client := [CNew (Rat (Some (3 # 4))) Flt; CNew (Int 1) Int8].
Definition run_script {Arg} (P : pymod Arg) (pre : list client) (ks : list nat) (acts : list (act Arg)) : list (list data) * list data :=
  let '(h, vis) := clients pre empty [] in
  match pick vis ks with
  | Some objs => let w := history P h vis objs acts in (map e_out (w_log w), map (rd (w_heap w)) (w_vis w))
  | None => ([], [])
  end.
Example C91_mul_ex : run_script (mul_py Unipolar 2 [0; 2; 1; 3] Long Int8) pre_mul [0%nat] script_mul =
  ([[Int 1]; [Int 1]; [Int 0]; [Int 1]; [Int 0]], [Rat (Some 0%Q); Int 1; Int 1; Int 1; Int 0; Int 1; Int 0]).
Proof. vm_compute. reflexivity. Qed.
(** The input is overwritten and repointed between the calls, and the first result is overwritten: the answers are those for 1,1,1,0,0. *)
Definition pre_bits : list client := [CNew (Int 1) Flt; CNew (Int 0) Flt].
Definition script_bits : list (act unit) :=
  [Call tt [0%nat]; Do (CWrite 2 (Int 9)); Call tt [0%nat]; Do (CPoint 0 1); Do (CWrite 1 (Int 1)); Call tt [0%nat]; Do (CWrite 1 (Int 0));
   Call tt [0%nat]; Call tt [0%nat]].
Example C91_bi2uni_ex : run_script (bi2uni_py 2 Flt Int8) pre_bits [] script_bits =
  ([[Int 1]; [Int 1]; [Int 1]; [Int 0]; [Int 0]], [Int 0; Int 0; Int 9; Int 1; Int 1; Int 0; Int 0]).
Proof. vm_compute. reflexivity. Qed.
Example C91_uni2bi_ex : run_script (uni2bi_py 2 Flt Flt) pre_bits [] script_bits =
  ([[Int 1]; [Int 1]; [Int 1]; [Int 0]; [Int 1]], [Int 0; Int 0; Int 9; Int 1; Int 1; Int 0; Int 1]).
Proof. vm_compute. reflexivity. Qed.
Example C91_signabs_ex : fst (run_script (signabs_py 1 Flt Int8) pre_bits [] script_bits) =
  [[Int 0; Int 1]; [Int 0; Int 1]; [Int 0; Int 1]; [Int 0; Int 0]; [Int 1; Int 1]].
Proof. vm_compute. reflexivity. Qed.
Example C91_relu_ex : run_script (relu_py 1 Flt Int8) pre_bits [] script_bits =
  ([[Int 1]; [Int 1]; [Int 1]; [Int 0]; [Int 0]], [Int 0; Int 0; Int 9; Int 1; Int 1; Int 0; Int 0]).
Proof. vm_compute. reflexivity. Qed.
Example C91_add_ex : run_script (add_py {| fa_mode := Bipolar; fa_scale := Some 1%Q; fa_depth := 4; fa_entry := None |} Flt Int8) [CNew (Vec [1; 1; 0]) Flt] []
  [Call tt [0%nat]; Do (CWrite 1 (Int 9)); Do (CWrite 0 (Vec [1; 1; 1])); Call tt [0%nat]; Do (CWrite 0 (Vec [0; 0; 0])); Call tt [0%nat]; Call tt [0%nat]] =
  ([[Int 1]; [Int 1]; [Int 0]; [Int 0]], [Vec [0; 0; 0]; Int 9; Int 1; Int 0; Int 0]).
Proof. vm_compute. reflexivity. Qed.
Example C91_corr_ex : fst (run_script corr_py pre_bits []
  [Call true [0%nat; 0%nat]; Call true [1%nat; 1%nat]; Call false []; Do (CWrite 0 (Int 0)); Do (CWrite 2 (Rat None)); Do (CWrite 1 (Int 1));
   Call true [0%nat; 1%nat];  Call true [1%nat; 1%nat]; Call false []]) =
  [[]; []; [Rat (Some 1%Q)]; []; []; [Rat (Some (4 # 4))]].
Proof. vm_compute. reflexivity. Qed.
(** ShiftReg returns a view of its register, but has let go of that storage by the time the client can write into it. *)
Example C91_shiftreg_ex : fst (run_script (sr_py 2 Flt) [CNew (Int 0) Flt] []
  [Call 0%nat [0%nat]; Do (CWrite 1 (Int 5)); Call 0%nat [0%nat]; Do (CWrite 3 (Int 6)); Call 0%nat [0%nat]; Call 0%nat [0%nat]]) =
  [[Int 0; Int 1]; [Int 1; Int 1]; [Int 0; Int 0]; [Int 0; Int 0]].
Proof. vm_compute. reflexivity. Qed.

(** JKFF returns its register cast to stype: a copy unless stype is int8. *)
Theorem C91_jkff : forall stype, stype <> Int8 -> isolated (jkff_py stype) jkff_pure.
Proof. intros stype H. exact (isolated_ok _ _ _ _ _ (jkff_new_ok stype) (jkff_fwd_ok stype H) (fun _ => eq_refl)). Qed.
Print Assumptions C91_jkff.
Definition pre_jk : list client := [CNew (Int 1) Int8; CNew (Int 0) Int8].
Theorem C91_jkff_refuted : exists stype, ~ faithful (jkff_py stype) jkff_pure /\ ~ undisturbed (jkff_py stype) /\ ~ independent (jkff_py stype).
Proof.
  exists Int8. repeat split; intros H.
  - specialize (H pre_jk [] [Call tt [0%nat; 1%nat]; Do (CWrite 2 (Int 0)); Call tt [1%nat; 1%nat]] [] eq_refl). vm_compute in H. discriminate H.
  - specialize (H pre_jk [] [Call tt [0%nat; 1%nat]] [] eq_refl). destruct H as [_ H].
    specialize (H tt [1%nat; 0%nat] _ eq_refl 2%nat (or_intror (or_intror (or_introl eq_refl)))). vm_compute in H. discriminate H.
  - specialize (H pre_jk [] [Call tt [0%nat; 1%nat]] [] eq_refl tt [0%nat; 1%nat] _ eq_refl 2%nat 3%nat _ _ (Int 5) eq_refl eq_refl ltac:(discriminate) ltac:(vm_compute; repeat constructor)).
    vm_compute in H. discriminate H.
Qed.
Print Assumptions C91_jkff_refuted.
(** With int8 the two results are one object; with float32 they are two. *)
Example C91_jkff_ex : snd (run_script (jkff_py Int8) pre_jk [] [Call tt [0%nat; 1%nat]; Call tt [1%nat; 0%nat]]) = [Int 1; Int 0; Int 0; Int 0] /\
  snd (run_script (jkff_py Flt) pre_jk [] [Call tt [0%nat; 1%nat]; Call tt [1%nat; 0%nat]]) = [Int 1; Int 0; Int 1; Int 0].
Proof. vm_compute. split; reflexivity. Qed.

(** SkewedSync hands its second input back. *)
Theorem C91_sync : forall depth btype stype, faithful (sync_py depth btype stype) (sync_pure depth) /\ undisturbed (sync_py depth btype stype).
Proof.
  intros. split; [ exact (faithful_ok _ _ _ _ _ (sync_new_ok depth btype stype) (sync_fwd_ok depth btype stype))
                 | exact (undisturbed_ok _ _ _ _ _ (sync_new_ok depth btype stype) (sync_fwd_ok depth btype stype) (fun _ => eq_refl)) ].
Qed.
Print Assumptions C91_sync.
Theorem C91_sync_refuted : forall depth btype stype, ~ independent (sync_py depth btype stype).
Proof.
  intros depth btype stype H.
  specialize (H pre_jk [] [] [] eq_refl tt [0%nat; 1%nat] _ eq_refl 3%nat 1%nat _ _ (Int 5) eq_refl eq_refl ltac:(discriminate) ltac:(vm_compute; repeat constructor)).
  vm_compute in H. discriminate H.
Qed.
Print Assumptions C91_sync_refuted.
Example C91_sync_ex : snd (run_script (sync_py 2 Flt Int8) pre_jk [] [Call tt [0%nat; 1%nat]; Do (CWrite 3 (Int 1))]) = [Int 1; Int 1; Int 0; Int 1].
Proof. vm_compute. reflexivity. Qed.

(** ProgError returns its Parameters pp and pe: every answer is right when it is given, and changes with the next one. *)
Theorem C91_progerror : forall m scale, faithful (progerr_py m scale) (progerr_pure m scale).
Proof. intros. exact (faithful_ok _ _ _ _ _ (progerr_new_ok m scale) (progerr_fwd_ok m scale)). Qed.
Print Assumptions C91_progerror.
Definition pre_pe : list client := [CNew (Rat (Some (1 # 2))) Flt; CNew (Int 1) Flt; CNew (Int 0) Flt].
Definition script_pe : list (act bool) := [Call true [1%nat]; Call false []; Call true [2%nat]].
Theorem C91_progerror_refuted : forall m scale, ~ undisturbed (progerr_py m scale).
Proof.
  intros m scale H. specialize (H pre_pe [0%nat] script_pe _ eq_refl). destruct H as [_ H].
  specialize (H false [] _ eq_refl 6%nat ltac:(destruct m; vm_compute; tauto)).
  destruct m; vm_compute in H; discriminate H.
Qed.
Print Assumptions C91_progerror_refuted.
(** Every call of forward returns the same two objects, so all the answers kept show the last one. *)
Theorem C91_progerror_one : forall m scale r h, snd (pm_fwd (progerr_py m scale) (Some r) false [] h) = (Some r, [pr_pp r; pr_pe r]).
Proof. intros [|] scale r h; reflexivity. Qed.
Print Assumptions C91_progerror_one.
Example C91_progerror_ex : run_script (progerr_py Unipolar 1) pre_pe [0%nat] (script_pe ++ [Call false []]) =
  ([[]; [Rat (Some (1 # 1)); Rat (Some (1 # 2))]; []; [Rat (Some (1 # 2)); Rat (Some (0 # 4))]],
   [Rat (Some (1 # 2)); Int 1; Int 0; Rat (Some (1 # 2)); Rat (Some (0 # 4)); Rat (Some (1 # 2)); Rat (Some (0 # 4))]).
Proof. vm_compute. reflexivity. Qed.

(** C92. Layers built from weights of the caller. FSULinear and FSUConv2d quantise them into a storage of their own. *)
Theorem C92_fsu : forall m width rtype f cm meth bitwidth,
  isolated (layer_py (fsu_new m width rtype) f cm meth bitwidth) (own_pure (fsu_enc m width) f cm meth bitwidth).
Proof.
  intros. exact (isolated_ok _ _ _ _ _ (fsu_new_ok m width rtype f cm meth bitwidth) (fsu_fwd_ok (fsu_new m width rtype) (fsu_enc m width) f cm meth bitwidth) (fun _ => eq_refl)).
Qed.
Print Assumptions C92_fsu.
Definition dot (w x : data) : data := Rat (Some (Qred (fold_right Qplus 0%Q (map2 Qmult (toQs w) (toQs x))))).
Definition pre_w : list client := [CNew (Qs [1 # 4; 3 # 1]) Flt; CNew (Qs [1 # 1; 1 # 1]) Flt].
Definition script_w : list (act bool) := [Call true [1%nat]; Do (CWrite 0 (Qs [1 # 2; 1 # 2])); Call true [1%nat]; Do (CWrite 0 (Qs [7 # 1; 0%Q])); Call false []; Call true [1%nat]].
Example C92_fsu_ex : fst (run_script (layer_py (fsu_new Unipolar 2 Flt) dot Bipolar Clip 3) [CNew (Qs [1 # 4; 3 # 4]) Flt; CNew (Qs [1 # 1; 1 # 1]) Flt] [0%nat]
  [Call true [1%nat]; Do (CWrite 0 (Qs [1 # 2; 1 # 2])); Call true [1%nat]]) = [[Rat (Some 4%Q)]; [Rat (Some 4%Q)]].
Proof. vm_compute. reflexivity. Qed.

(** HUBLinear, FXPLinear, TLUTLinear and the convolutions of the same names point at the caller's tensor. However the client has written
    into it since: forward works with what is in it now and changes nothing the client holds; the clipper does to every tensor of the
    client what writing the clipped weights into that tensor would do. *)
Theorem C92_hub : forall f cm meth bitwidth pre k acts,
  let P := layer_py hub_new f cm meth bitwidth in
  let '(h, vis) := clients pre empty [] in
  forall o, nth_error vis k = Some o -> (forall l, ~ In (Do (CPoint k l)) acts) ->
  (forall p, In p vis -> rd (w_heap (construct P h vis [o])) p = rd h p) /\
  let w := history P h vis [o] acts in let h1 := w_heap w in
  (forall x, In x (w_vis w) -> let w' := call P w true [x] in
     map e_out (w_log w') = map e_out (w_log w) ++ [[f (rd h1 o) (rd h1 x)]] /\
     forall p, In p (w_vis w) -> rd (w_heap w') p = rd h1 p) /\
  (forall objs, let w' := call P w false objs in
     let '(h2, _) := client_do (CWrite k (Qs (clip_value cm meth bitwidth (toQs (rd h1 o))))) h1 (w_vis w) in
     w_vis w' = w_vis w /\ forall p, In p (w_vis w) -> rd (w_heap w') p = rd h2 p).
Proof. exact hub_shares. Qed.
Print Assumptions C92_hub.
(** Of two layers built from one tensor, clipping the first clips the second and the tensor. *)
Theorem C92_hub_two : forall f cm meth bitwidth h o x,
  (forall p, (p < h_nobj h)%nat -> (o_st (h_obj h p) < h_nst h)%nat) -> (o < h_nobj h)%nat -> (x < h_nobj h)%nat -> o_row (h_obj h o) = None -> o_st (h_obj h x) <> o_st (h_obj h o) ->
  let '(h1, (a, b)) := bindM (hub_new o) (fun a => bindM (hub_new o) (fun b => ret (a, b))) h in
  let w' := Qs (clip_value cm meth bitwidth (toQs (rd h o))) in
  let '(h2, y) := bindM (clip_weight cm meth bitwidth a) (fun _ => layer_fwd f b x) h1 in
  rd h2 y = f w' (rd h x) /\ rd h2 o = w'.
Proof. exact hub_twice. Qed.
Print Assumptions C92_hub_two.
Example C92_hub_ex : run_script (layer_py hub_new dot Bipolar Clip 3) pre_w [0%nat] script_w =
  ([[Rat (Some (13 # 4))]; [Rat (Some 1%Q)]; []; [Rat (Some (1 # 1))]],
   [Qs [8 # 8; 0 # 8]; Qs [1 # 1; 1 # 1]; Rat (Some (13 # 4)); Rat (Some 1%Q); Rat (Some 1%Q)]).
Proof. vm_compute. reflexivity. Qed.
(** So such a layer neither keeps the weights it was built with nor leaves the caller's tensor alone. *)
Theorem C92_hub_refuted : exists f cm meth bitwidth, let P := layer_py hub_new f cm meth bitwidth in
  ~ faithful P (own_pure (fun w => w) f cm meth bitwidth) /\ ~ undisturbed P.
Proof.
  exists dot, Bipolar, Clip, 3%nat. split; intros H.
  - specialize (H pre_w [0%nat] script_w _ eq_refl). vm_compute in H. discriminate H.
  - specialize (H pre_w [0%nat] [] _ eq_refl). destruct H as [_ H]. specialize (H false [] _ eq_refl 0%nat ltac:(vm_compute; tauto)).
    vm_compute in H. discriminate H.
Qed.
Print Assumptions C92_hub_refuted.
