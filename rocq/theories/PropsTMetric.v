(** C71: the metrics on tensors of any shape. Statements use TMetricSpec and the one-lane models, which C05, C06 and C47-C49 characterise. *)
Require Import Verif.TMetricModel Verif.TMetricSpec Verif.TMetricProof.
Open Scope Z_scope.

(** Correlation, one call after any calls whatever: it succeeds exactly when the operands broadcast to a single element of at most one
    dimension, and then counts that element; otherwise RuntimeError and no counter moves, but a one-argument call has already replaced the
    remembered input. *)
Theorem C71_correlation_call : forall h in_1 arg2,
  let s := fst (run corrt_monitor corrt_init h) in
  let in_2 := match arg2 with None => ct_in1d s | Some v => v end in
  let '(s', err) := corrt_monitor s (in_1, arg2) in
  ct_in1d s' = match arg2 with None => in_1 | Some _ => ct_in1d s end /\
  ((exists r, bshape (shp in_1) (shp in_2) = Some r /\ single r) ->
     err = None /\ cval s' = corr_monitor (cval s) (only in_1, option_map only arg2)) /\
  (~ (exists r, bshape (shp in_1) (shp in_2) = Some r /\ single r) ->
     err = Some RuntimeError /\ ct_d s' = ct_d s /\ ct_c s' = ct_c s /\ ct_b s' = ct_b s /\ ct_a s' = ct_a s /\ ct_len s' = ct_len s).
Proof. exact @corr_calls. Qed.
Print Assumptions C71_correlation_call.
Theorem C71_correlation_forward : forall h, let s := fst (run corrt_monitor corrt_init h) in
  exists r, corrt_forward s = Ok r /\ shp r = [1%nat] /\ elt r [0%nat] = corr_forward (cval s).
Proof. exact @corr_outs. Qed.
Print Assumptions C71_correlation_forward.
(** On single elements it never raises and is the one-lane metric. *)
Theorem C71_correlation_single : forall h, Forall (fun p => single (shp (fst p)) /\ match snd p with None => True | Some y => single (shp y) end) h ->
  let '(s, errs) := run corrt_monitor corrt_init h in
  errs = map (fun _ => None) h /\
  exists r, corrt_forward s = Ok r /\ shp r = [1%nat] /\
    elt r [0%nat] = corr_forward (corr_monitors corr_init (map (fun p => (only (fst p), option_map only (snd p))) h)).
Proof. exact @corr_lanes. Qed.
Print Assumptions C71_correlation_single.
(** ProgError on any inputs: calls whose input does not broadcast against the counter raise RuntimeError and count nothing; pp has the
    counter's shape and every element is the one-lane metric on the inputs that were taken; pe has the shape pp and the source broadcast to,
    RuntimeError when they do not (pp is then assigned all the same). *)
Theorem C71_progerror : forall m scale source xs,
  let '(s, errs) := run pet_monitor pet_init xs in
  let sh := grown [1%nat] xs in
  let h i := pe_monitors pe_init (map (fun x => at1 x i) (taken [1%nat] xs)) in
  errs = refusals [1%nat] xs /\
  exists pp pe, pet_forward m (pet_source scale source) s = Ok (pp, pe) /\ shp pp = sh /\
  (forall i, valid sh i -> elt pp i = option_map fst (pe_forward m scale (at1 source i) (h i))) /\
  match bshape sh (shp source) with
  | None => pe = Err RuntimeError
  | Some r => exists p, pe = Ok p /\ shp p = r /\ forall i, valid r i -> elt p i = option_map snd (pe_forward m scale (at1 source i) (h (bidx sh i)))
  end.
Proof. exact @pe_lanes. Qed.
Print Assumptions C71_progerror.
(** Stability on any inputs: which calls raise, and the result: its cycle counts every input the progressive error took, its settling time
    only those that arrived while the counter still expanded to the source's shape. While it does, every element is the one-lane metric. *)
Theorem C71_stability : forall m scale source threshold xs,
  let '(s, errs) := run (stabt_monitor m scale source threshold) (stabt_init source) xs in
  let cycle := Z.of_nat (length (taken [1%nat] xs)) in
  errs = misfits (shp source) [1%nat] xs /\
  exists r, stabt_forward s = Ok r /\ Some (shp r) = bshape (shp source) [1%nat] /\
  (forall i, valid (shp r) i -> elt r i =
     if cycle =? 0 then None
     else Some (1 - inject_Z (zclamp 1 cycle (sb_cts (stab_monitors m scale (at1 source i) threshold stab_init
                                                        (map (fun x => at1 x i) (fitting (shp source) [1%nat] xs))))) / inject_Z cycle)%Q) /\
  (expands (grown [1%nat] xs) (shp source) -> 0 < cycle -> forall i, valid (shp source) i -> elt r i =
     Some (stab_forward (stab_monitors m scale (at1 source i) threshold stab_init (map (fun x => at1 x i) (taken [1%nat] xs))))).
Proof. exact @stab_lanes. Qed.
Print Assumptions C71_stability.
(** Once an input has made the counter larger than the source, every later call raises and the settling time never moves again. *)
Theorem C71_stability_stuck : forall m scale source threshold xs ys, ~ expands (grown [1%nat] xs) (shp source) ->
  let s := fst (run (stabt_monitor m scale source threshold) (stabt_init source) xs) in
  snd (run (stabt_monitor m scale source threshold) s ys) = map (fun _ => Some RuntimeError) ys /\
  st_cts (fst (run (stabt_monitor m scale source threshold) s ys)) = st_cts s.
Proof. exact @stab_stuck_lanes. Qed.
Print Assumptions C71_stability_stuck.
(** A source without dimensions: every call raises. *)
Theorem C71_stability_scalar_source : forall m scale source threshold, shp source = [] -> forall xs,
  snd (run (stabt_monitor m scale source threshold) (stabt_init source) xs) = map (fun _ => Some RuntimeError) xs.
Proof. exact @stab_zerodim. Qed.
Print Assumptions C71_stability_scalar_source.

(** Two lanes; an input of three elements is refused; the remembered input of a refused call; a source of one element; a scalar source. *)
Definition vecz (l : list Z) : tensor Z := mkT [length l] (fun i => nth (hd 0%nat i) l 0).
Definition vecq (l : list Q) : tensor Q := mkT [length l] (fun i => nth (hd 0%nat i) l 0%Q).
Example C71_ex_progerror :
  let '(s, errs) := run pet_monitor pet_init [vecz [1; 0]; vecz [1; 1; 1]; vecz [1]] in
  errs = [None; Some RuntimeError; None] /\
  match pet_forward Bipolar (pet_source 1 (vecq [1 # 2; 1%Q])) s with
  | Ok (pp, Ok pe) => map (fun j => option_map Qred (elt pp [j])) [0; 1]%nat = [Some 1%Q; Some 0%Q] /\
      map (fun j => option_map Qred (elt pe [j])) [0; 1]%nat = [Some (1 # 2); Some (-1 # 1)]
  | _ => False
  end.
Proof. vm_compute. repeat split; reflexivity. Qed.
Example C71_ex_correlation :
  snd (run corrt_monitor corrt_init [(vecz [1], None); (vecz [0], None); (vecz [1; 0], None); (vecz [1], None); (vecz [1], None)]) =
    [None; None; Some RuntimeError; Some RuntimeError; None].
Proof. vm_compute. reflexivity. Qed.
Example C71_ex_stability :
  snd (run (stabt_monitor Unipolar 1 (vecq [1 # 2; 1%Q]) (1 # 20)) (stabt_init (vecq [1 # 2; 1%Q])) [vecz [1; 0]; vecz [1; 0; 1]; vecz [1; 1]]) =
    [None; Some RuntimeError; None] /\
  snd (run (stabt_monitor Unipolar 1 (vecq [1%Q]) (1 # 20)) (stabt_init (vecq [1%Q])) [vecz [1]; vecz [1; 0]; vecz [1]]) =
    [None; Some RuntimeError; Some RuntimeError] /\
  snd (run (stabt_monitor Unipolar 1 (mkT [] (fun _ => 1%Q)) (1 # 20)) (stabt_init (mkT [] (fun _ => 1%Q))) [mkT [] (fun _ => 1)]) =
    [Some RuntimeError].
Proof. repeat split; vm_compute; reflexivity. Qed.
