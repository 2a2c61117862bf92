(** Vocabulary for layers put one behind the other, and for layers that have been used before. *)
Require Export Verif.Base Verif.Spec Verif.GenModel Verif.LinearModel Verif.NameSpec Verif.NewSpec Verif.ProgSpec.
Open Scope Z_scope.

(** What a fully connected layer is built from. *)
Record layer : Type := {
  ly_in : nat; ly_out : nat; ly_bias : bool;
  ly_w : list (list Q); ly_b : option (list Q);
  ly_dim : nat; ly_depth : Z
}.
Definition ly_entries (L : layer) : Z := Z.of_nat (ly_in L) + b2z (ly_bias L).
(** The constructor accepts it, at the default scale. *)
Definition builds (ext : rng_ext) (w : nat) (m_name r_name : String.string) (L : layer) (ca : pc_cfg * fsuadd_cfg) : Prop :=
  flin_new ext (ly_in L) (ly_out L) (ly_bias L) (Some (ly_w L)) (ly_b L) [] w m_name r_name (ly_dim L) None (ly_depth L) = Ok ca.
(** Its parameters lie in the range of the mode and its accumulator is deep enough not to saturate. *)
Definition layer_ok (m : mode) (ext : rng_ext) (L : layer) : Prop :=
  (1 <= ly_in L)%nat /\ dirvec_ok 30 (ext_dirvec ext (ly_dim L)) /\ Forall (Forall (src_ok m)) (ly_w L) /\ src_opt m (ly_b L) /\
  (inject_Z (2 * ly_entries L - 1) <= Qpower 2 (ly_depth L - 2))%Q.
(** The real average it stands for. *)
Definition real_layer (L : layer) (x : nat -> Q) (o : nat) : Q :=
  ((qsum (map (fun i => x i * nth i (nth o (ly_w L) []) 0) (seq 0 (ly_in L))) +
    match ly_b L with Some b => if ly_bias L then nth o b 0 else 0 | None => 0 end) / inject_Z (ly_entries L))%Q.
Definition real_net (Ls : list layer) (x : nat -> Q) : nat -> Q := fold_left (fun x L => real_layer L x) Ls x.

(** Layers called one after the other at every cycle, each with what the one before emitted in that cycle. *)
Fixpoint net_step (cas : list (pc_cfg * fsuadd_cfg)) (ss : list flin_st) (x : list (list Z)) : result (list flin_st * list (list Z)) :=
  match cas, ss with
  | (c, a) :: cas', s :: ss' =>
      bind (flin_step c a s (x, None, None)) (fun r => bind (net_step cas' ss' (snd r)) (fun r' => Ok (fst r :: fst r', snd r')))
  | _, _ => Ok ([], x)
  end.
Definition net_init (cas : list (pc_cfg * fsuadd_cfg)) : list flin_st := map (fun ca => flin_init (fst ca)) cas.

(** Each layer takes as many values as the one before gives. *)
Fixpoint chained (n : nat) (Ls : list layer) : Prop :=
  match Ls with [] => True | L :: r => ly_in L = n /\ chained (ly_out L) r end.
Definition net_out (n : nat) (Ls : list layer) : nat := fold_left (fun _ L => ly_out L) Ls n.

(** How far, in bits, a layer's products may stray; twice as far in a layer that starts at an arbitrary point of its sequences. *)
Definition layer_slack (m : mode) (w : nat) (used : bool) : Q :=
  inject_Z ((if used then 2 else 1) * (match m with Unipolar => 1 | Bipolar => 2 end * Z.of_nat w)).
