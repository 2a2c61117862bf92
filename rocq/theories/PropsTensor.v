(** Property C52: lane independence of the streaming kernels on tensors with torch's broadcasting. *)
Require Import Verif.BaseLemmas Verif.TensorModel Verif.TensorSpec Verif.TensorProof.
Open Scope Z_scope.

(** C52. Any history of inputs of any shapes. *)
Theorem C52_relu : forall d, lanewise shape1 at1 out1 oat1 (fsurelu_t d) (fsurelu_t_init d) (fsurelu_step d) (fsurelu_init d).
Proof. exact @relu_lanes. Qed.
Print Assumptions C52_relu.
Theorem C52_signabs : forall d, lanewise shape1 at1 out2 oat2 (fsusignabs_t d) (fsusignabs_t_init d) (fsusignabs_step d) (fsusignabs_init d).
Proof. exact @signabs_lanes. Qed.
Print Assumptions C52_signabs.
Theorem C52_jkff : lanewise shape2 at2 out1 oat1 jkff_t jkff_t_init jkff_step jkff_init.
Proof. exact @jkff_lanes. Qed.
Print Assumptions C52_jkff.
Theorem C52_bi2uni : forall d, lanewise shape1 at1 out1 oat1 (bi2uni_t d) bi2uni_t_init (bi2uni_step d) bi2uni_init.
Proof. exact @bi2uni_lanes. Qed.
Print Assumptions C52_bi2uni.
Theorem C52_uni2bi : forall d, lanewise shape1 at1 out1 oat1 (uni2bi_t d) uni2bi_t_init (uni2bi_step d) uni2bi_init.
Proof. exact @uni2bi_lanes. Qed.
Print Assumptions C52_uni2bi.
Theorem C52_add : forall c dima xs, Forall (fun x => (dima < length (shp x))%nat) xs ->
  lanewise_on (addshape dima) (addat dima) out1 oat1 (fsuadd_t c dima) (fsuadd_t_init c) (fsuadd_step c) (fsuadd_init c) xs.
Proof. exact @add_lanes. Qed.
Print Assumptions C52_add.
(** Reading of [lanewise_on] when all inputs have one shape with at least one dimension: no call raises, outputs have that shape,
    and the stream at every position is the one-lane stream. *)
Theorem C52_same_shape : forall {TX TY X Y TS S} xshape xat yok yat (T : TS -> TX -> result (TS * TY)) st0 (f : S -> X -> S * Y) s0 s xs,
  lanewise_on xshape xat yok yat T st0 f s0 xs -> s <> [] -> Forall (fun x => xshape x = Some s) xs ->
  exists st ys, run_r T st0 xs = Ok (st, ys) /\ Forall (yok s) ys /\
  forall i, valid s i -> map (fun y => yat y i) ys = outs f s0 (map (fun x => xat x i) xs).
Proof. exact @lanewise_same. Qed.
Print Assumptions C52_same_shape.
(** SkewedSync: a block of inputs of one shape; after an input of another shape all counters restart at 0, whatever happened before. *)
Theorem C52_skewedsync : forall depth s xs, Forall (fun x => shape2 x = Some s) xs ->
  exists st ys, run_r (skewedsync_t depth) skewedsync_t_init xs = Ok (st, ys) /\ map snd ys = map snd xs /\ Forall (fun y => shp (fst y) = s) ys /\
  forall i, valid s i -> map (fun y => (elt (fst y) i, at1 (snd y) i)) ys = outs (skewedsync_step depth) skewedsync_init (map (fun x => at2 x i) xs).
Proof. exact @sync_lanes. Qed.
Print Assumptions C52_skewedsync.
Theorem C52_skewedsync_restart : forall depth s s1 xs1 x xs2 st1 ys1, shape2 x = Some s1 -> s1 <> s -> Forall (fun x => shape2 x = Some s) xs2 ->
  run_r (skewedsync_t depth) skewedsync_t_init (xs1 ++ [x]) = Ok (st1, ys1) ->
  exists st ys, run_r (skewedsync_t depth) skewedsync_t_init ((xs1 ++ [x]) ++ xs2) = Ok (st, ys1 ++ ys) /\
  map snd ys = map snd xs2 /\ Forall (fun y => shp (fst y) = s) ys /\
  forall i, valid s i -> map (fun y => (elt (fst y) i, at1 (snd y) i)) ys = outs (skewedsync_step depth) skewedsync_init (map (fun x => at2 x i) xs2).
Proof. exact @sync_restart. Qed.
Print Assumptions C52_skewedsync_restart.
Theorem C52_skewedsync_raises : forall depth xs, (exists x, In x xs /\ shape2 x = None) -> run_r (skewedsync_t depth) skewedsync_t_init xs = Err RuntimeError.
Proof. exact @sync_raises. Qed.
Print Assumptions C52_skewedsync_raises.
(** FSUMul: operand tensor expandable to the input's shape; in-stream. *)
Theorem C52_mul_static : forall m binary rng s xs, s <> [] -> bshape (shp binary) s = Some s -> Forall (fun x => shp x = s) xs ->
  exists st ys, run_r (fsumul_static_t m binary rng) fsumul_static_t_init xs = Ok (st, ys) /\ Forall (fun y => shp y = s) ys /\
  forall i, valid s i -> map (fun y => elt y i) ys =
    outs (fsumul_static_step m (at1 binary i) rng) fsumul_static_init (map (fun x => elt x i) xs).
Proof. exact @mul_lanes. Qed.
Print Assumptions C52_mul_static.
Theorem C52_mul_in_stream : forall m width rng s xs, s <> [] -> Forall (fun x => shp (fst x) = s /\ shp (snd x) = s) xs ->
  exists st ys, run_r (fsumul_is_t m width rng) fsumul_is_t_init xs = Ok (st, ys) /\ Forall (fun y => shp y = s) ys /\
  forall i, valid s i -> map (fun y => elt y i) ys =
    outs (fsumul_is_step m width rng) (fsumul_is_init width) (map (fun x => (elt (fst x) i, elt (snd x) i)) xs).
Proof. exact @mul_is_lanes. Qed.
Print Assumptions C52_mul_in_stream.

(** Two lanes; then a scalar tensor seen by both; a shape change. *)
Definition vec (l : list Z) : tensor Z := mkT [length l] (fun i => nth (hd 0%nat i) l 0).
Definition show (n : nat) (y : tensor Z) : list Z := map (fun j => elt y [j]) (seq 0 n).
Example C52_ex :
  (match run_r (fsurelu_t 1) (fsurelu_t_init 1) [vec [1; 0]; vec [0]; vec [0; 1]; vec [0; 1]] with
   | Ok (_, ys) => map (show 2) ys = [[1; 0]; [0; 1]; [0; 1]; [1; 1]] | Err _ => False end) /\
  outs (fsurelu_step 1) (fsurelu_init 1) [0; 0; 1; 1] = [0; 1; 1; 1] /\
  run_r (fsurelu_t 1) (fsurelu_t_init 1) [vec [1; 0]; vec [0; 1; 0]] = Err RuntimeError /\
  (match run_r (skewedsync_t 1) skewedsync_t_init [(vec [1; 1], vec [0; 1]); (vec [0; 0], vec [1; 1]); (vec [1; 0; 0], vec [0])] with
   | Ok (_, ys) => map (fun y => show (hd 0%nat (shp (fst y))) (fst y)) ys = [[0; 1]; [1; 0]; [0; 0; 0]] | Err _ => False end).
Proof. repeat split; vm_compute; reflexivity. Qed.
Example C52_add_ex :
  let x (l : list Z) := mkT [2; 2]%nat (fun i => nth (hd 0%nat i + 2 * hd 0%nat (tl i))%nat l 0) in
  let c := {| fa_mode := Unipolar; fa_scale := None; fa_depth := 6; fa_entry := None |} in
  match run_r (fsuadd_t c 0) (fsuadd_t_init c) [x [1; 0; 1; 1]; x [1; 1; 0; 0]; x [1; 1; 1; 0]] with
  | Ok (_, ys) => map (show 2) ys = [[1; 0]; [0; 1]; [1; 0]] | Err _ => False end.
Proof. vm_compute. reflexivity. Qed.
Example C52_mul_ex :
  match run_r (fsumul_static_t Bipolar (vec [3; 1]) [0; 2; 3; 1]) fsumul_static_t_init [vec [1; 1]; vec [1; 0]; vec [0; 1]; vec [1; 1]] with
  | Ok (_, ys) => map (show 2) ys = [[1; 1]; [1; 0]; [0; 0]; [0; 0]] | Err _ => False end /\
  match run_r (fsumul_is_t Unipolar 1 [0; 1]) fsumul_is_t_init [(vec [1; 1], vec [1; 0]); (vec [1; 1], vec [1; 0]); (vec [1; 1], vec [1; 0])] with
  | Ok (_, ys) => map (show 2) ys = [[1; 1]; [1; 0]; [1; 0]] | Err _ => False end.
Proof. split; vm_compute; reflexivity. Qed.
