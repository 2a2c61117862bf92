(** What a client of a module may rely on when tensors are references. The client holds objects (the ones it made and the ones it was
    given), may write into them, point them elsewhere and take views at any time, and may pass any of them to the module. *)
Require Export Verif.AliasModel.
Open Scope Z_scope.

(** What the client may do between two calls; numbers are positions in the list of the objects it holds. *)
Inductive client : Type :=
| CNew (d : data) (t : dty)          (* x = torch.tensor(...) *)
| CWrite (k : nat) (d : data)        (* x.copy_(...), x.add_(...), ... *)
| CPoint (k l : nat)                 (* x.data = y *)
| CView (k i : nat).                 (* x[i] *)
Definition client_do (c : client) (h : heap) (vis : list nat) : heap * list nat :=
  match c with
  | CNew d t => let '(h1, o) := alloc d t h in (h1, vis ++ [o])
  | CWrite k d => match nth_error vis k with Some o => (fst (write o d h), vis) | None => (h, vis) end
  | CPoint k l => match nth_error vis k, nth_error vis l with Some o, Some p => (fst (set_data o p h), vis) | _, _ => (h, vis) end
  | CView k i => match nth_error vis k with
                 | Some o => match o_row (h_obj h o) with
                             | None => let '(h1, v) := view o i h in (h1, vis ++ [v])
                             | Some _ => (h, vis)
                             end
                 | None => (h, vis)
                 end
  end.
Definition clients (cs : list client) (h : heap) (vis : list nat) : heap * list nat :=
  fold_left (fun w c => client_do c (fst w) (snd w)) cs (h, vis).
Fixpoint pick (vis : list nat) (ks : list nat) : option (list nat) :=
  match ks with
  | [] => Some []
  | k :: r => match nth_error vis k, pick vis r with Some o, Some l => Some (o :: l) | _, _ => None end
  end.

(** A history: what the client does, then the construction from some of its objects, then a mixture of client actions and calls. The log
    has, for every call, the contents of the tensors passed and the contents of the tensors returned, both at the time of the call. *)
Inductive act (Arg : Type) : Type := Do (c : client) | Call (a : Arg) (ks : list nat).
Arguments Do {Arg}. Arguments Call {Arg}.
Record entry (Arg : Type) : Type := { e_arg : Arg; e_in : list data; e_out : list data }.
Arguments e_arg {Arg}. Arguments e_in {Arg}. Arguments e_out {Arg}.
Record world (A Arg : Type) : Type := { w_heap : heap; w_attr : A; w_vis : list nat; w_log : list (entry Arg) }.
Arguments w_heap {A Arg}. Arguments w_attr {A Arg}. Arguments w_vis {A Arg}. Arguments w_log {A Arg}.

Definition empty : heap := {| h_obj := fun _ => {| o_st := 0; o_row := None; o_dt := Flt |}; h_st := fun _ => Int 0; h_nobj := 0; h_nst := 0 |}.

Section History.
  Context {Arg : Type} (P : pymod Arg).
  Definition construct (h : heap) (vis objs : list nat) : world (pm_attr P) Arg :=
    let '(h1, a) := pm_new P objs h in {| w_heap := h1; w_attr := a; w_vis := vis; w_log := [] |}.
  Definition call (w : world (pm_attr P) Arg) (arg : Arg) (objs : list nat) : world (pm_attr P) Arg :=
    let h := w_heap w in
    let '(h1, (a, os)) := pm_fwd P (w_attr w) arg objs h in
    {| w_heap := h1; w_attr := a; w_vis := w_vis w ++ os;
       w_log := w_log w ++ [{| e_arg := arg; e_in := map (rd h) objs; e_out := map (rd h1) os |}] |}.
  Definition act_do (w : world (pm_attr P) Arg) (x : act Arg) : world (pm_attr P) Arg :=
    match x with
    | Do c => let '(h1, v) := client_do c (w_heap w) (w_vis w) in {| w_heap := h1; w_attr := w_attr w; w_vis := v; w_log := w_log w |}
    | Call arg ks => match pick (w_vis w) ks with Some objs => call w arg objs | None => w end
    end.
  Definition history (h : heap) (vis objs : list nat) (acts : list (act Arg)) : world (pm_attr P) Arg :=
    fold_left act_do acts (construct h vis objs).
End History.

(** The same module over values. *)
Record puremod (Arg : Type) : Type := {
  pu_st : Type;
  pu_new : list data -> pu_st;
  pu_step : pu_st -> Arg * list data -> pu_st * list data
}.
Arguments pu_st {Arg}. Arguments pu_new {Arg}. Arguments pu_step {Arg}.

(** Whatever the client writes and points in between, every call answers as the module over values does on the contents passed. *)
Definition faithful {Arg : Type} (P : pymod Arg) (S : puremod Arg) : Prop :=
  forall (pre : list client) (ks : list nat) (acts : list (act Arg)),
  let '(h, vis) := clients pre empty [] in
  forall objs, pick vis ks = Some objs ->
  let log := w_log (history P h vis objs acts) in
  map e_out log = outs (pu_step S) (pu_new S (map (rd h) objs)) (map (fun e => (e_arg e, e_in e)) log).

(** The construction and the calls change the contents of none of the objects the client holds: earlier results keep their values. *)
Definition undisturbed {Arg : Type} (P : pymod Arg) : Prop :=
  forall (pre : list client) (ks : list nat) (acts : list (act Arg)),
  let '(h, vis) := clients pre empty [] in
  forall objs, pick vis ks = Some objs ->
  (forall o, In o vis -> rd (w_heap (construct P h vis objs)) o = rd h o) /\
  let w := history P h vis objs acts in
  forall arg ks' objs', pick (w_vis w) ks' = Some objs' ->
  forall o, In o (w_vis w) -> rd (w_heap (call P w arg objs')) o = rd (w_heap w) o.

(** What a call returns has storage of its own: a write by the client into a result shows in nothing else it holds, and a write into
    anything else does not show in the result. *)
Definition independent {Arg : Type} (P : pymod Arg) : Prop :=
  forall (pre : list client) (ks : list nat) (acts : list (act Arg)),
  let '(h, vis) := clients pre empty [] in
  forall objs, pick vis ks = Some objs ->
  let w := history P h vis objs acts in
  forall arg ks' objs', pick (w_vis w) ks' = Some objs' ->
  let w' := call P w arg objs' in
  forall i j o p d, nth_error (w_vis w') i = Some o -> nth_error (w_vis w') j = Some p -> i <> j ->
  (List.length (w_vis w) <= Nat.max i j)%nat ->
  rd (fst (write o d (w_heap w'))) p = rd (w_heap w') p.

Definition isolated {Arg : Type} (P : pymod Arg) (S : puremod Arg) : Prop := faithful P S /\ undisturbed P /\ independent P.

(** The modules over values: the lane models of the other files. A call with the wrong number of tensors does nothing. *)
Definition of_step1 {St Arg : Type} (init : St) (f : St -> Z -> St * Z) : puremod Arg :=
  {| pu_new := fun _ => init;
     pu_step := fun s i => match snd i with [x] => let '(s1, o) := f s (toZ x) in (s1, [Int o]) | _ => (s, []) end |}.
Definition bi2uni_pure (d2 : nat) : puremod unit := of_step1 bi2uni_init (bi2uni_step d2).
Definition uni2bi_pure (d2 : nat) : puremod unit := of_step1 uni2bi_init (uni2bi_step d2).
Definition relu_pure (d : nat) : puremod unit := of_step1 (fsurelu_init d) (fsurelu_step d).
Definition signabs_pure (d : nat) : puremod unit :=
  {| pu_new := fun _ => fsusignabs_init d;
     pu_step := fun s i => match snd i with [x] => let '(s1, (a, b)) := fsusignabs_step d s (toZ x) in (s1, [Int a; Int b]) | _ => (s, []) end |}.
(** The second output has whatever the second input has. *)
Definition sync_pure (depth : nat) : puremod unit :=
  {| pu_new := fun _ => skewedsync_init;
     pu_step := fun s i => match snd i with
                           | [x; y] => let '(s1, (a, _)) := skewedsync_step depth s (toZ x, toZ y) in (s1, [Int a; y])
                           | _ => (s, []) end |}.
Definition jkff_pure : puremod unit :=
  {| pu_new := fun _ => jkff_init;
     pu_step := fun s i => match snd i with [x; y] => let '(s1, o) := jkff_step s (toZ x, toZ y) in (s1, [Int o]) | _ => (s, []) end |}.
Definition sr_pure (entry : nat) : puremod nat :=
  {| pu_new := fun _ => shiftreg_init entry;
     pu_step := fun s i =>
       let go x m := let '(s1, (a, b)) := shiftreg_step s (x, m, Z.of_nat (fst i)) in (s1, [Int a; Int b]) in
       match snd i with [x] => go (toZ x) None | [x; m] => go (toZ x) (Some (toZ m)) | _ => (s, []) end |}.
Definition mul_pure (m : mode) (width : nat) (rng : list Z) : puremod unit :=
  {| pu_new := fun ds => match ds with [p] => Some (hd 0 (map (bingen m width) (toQs p)), fsumul_static_init) | _ => None end;
     pu_step := fun s i => match s, snd i with
                           | Some (b, st), [x] => let '(st1, o) := fsumul_static_step m b rng st (toZ x) in (Some (b, st1), [Int o])
                           | _, _ => (s, []) end |}.
Definition add_pure (c : fsuadd_cfg) : puremod unit :=
  {| pu_new := fun _ => fsuadd_init c;
     pu_step := fun s i => match snd i with [x] => let '(s1, o) := fsuadd_step c s (toL x) in (s1, [Int o]) | _ => (s, []) end |}.
Definition corr_pure : puremod bool :=
  {| pu_new := fun _ => corr_init;
     pu_step := fun s (i : bool * list data) =>
       if fst i then match snd i with
         | [x] => (corr_monitor s (toZ x, None), [])
         | [x; y] => (corr_monitor s (toZ x, Some (toZ y)), [])
         | _ => (s, []) end
       else match snd i with [] => (s, [Rat (Some (corr_forward s))]) | _ => (s, []) end |}.
Definition progerr_pure (m : mode) (scale : Q) : puremod bool :=
  {| pu_new := fun ds => match ds with [p] => Some (toQ p, pe_init) | _ => None end;
     pu_step := fun s (i : bool * list data) => match s with
       | None => (s, [])
       | Some (src, st) =>
           if fst i then match snd i with [x] => (Some (src, pe_monitor st (toZ x)), []) | _ => (s, []) end
           else match snd i with
                | [] => (s, match pe_forward m scale src st with
                            | None => [Rat None; Rat None]
                            | Some (pp, pe) => [Rat (Some pp); Rat (Some pe)] end)
                | _ => (s, []) end
       end |}.
(** A layer that owns its weights, [enc] of what it was given; the clipper changes them. *)
Definition own_pure (enc : data -> data) (f : data -> data -> data) (cm : mode) (meth : clip_method) (bitwidth : nat) : puremod bool :=
  {| pu_new := fun ds => match ds with [w] => Some (enc w) | _ => None end;
     pu_step := fun s (i : bool * list data) => match s with
       | None => (s, [])
       | Some w => if fst i then match snd i with [x] => (s, [f w x]) | _ => (s, []) end
                   else (Some (Qs (clip_value cm meth bitwidth (toQs w))), [])
       end |}.
(** What FSULinear and FSUConv2d make of their weights. *)
Definition fsu_enc (m : mode) (width : nat) (d : data) : data := Vec (map (bingen m width) (toQs d)).
