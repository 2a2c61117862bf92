(** Vocabulary for rearranged and negated inputs. *)
Require Export Verif.FaultSpec.
From Coq Require Export Permutation.
Open Scope Z_scope.

(** The table made of the given rows and columns of another; rows and columns may be left out or repeated. *)
Definition rearrange (rows cols : list nat) (x : list (list Z)) : list (list Z) := map (fun b => map (entry2 x b) cols) rows.
(** A layer with the outputs [outs] of another in this order, its inputs in the order [ins]. *)
Definition arranged (outs ins : list nat) (c : pc_cfg) : pc_cfg :=
  {| pc_mode := pc_mode c; pc_wtc := pc_wtc c; pc_rng := pc_rng c; pc_in := length ins; pc_out := length outs;
     pc_weight := rearrange outs ins (pc_weight c);
     pc_bias := match pc_bias c with None => None | Some b => Some (map (fun o => nth o b 0) outs) end |}.
(** A layer with its scale and depth, as a network takes it; every layer rearranged to take what the one before gives. *)
Definition scaled (l : pc_cfg * option Q * Z) : pc_cfg * fsuadd_cfg :=
  let '(c, scale, depth) := l in (c, flin_acc_cfg c scale depth).
Fixpoint arranged_net (ins : list nat) (ls : list (pc_cfg * option Q * Z)) (orders : list (list nat)) : list (pc_cfg * option Q * Z) :=
  match ls, orders with
  | (c, scale, depth) :: r, p :: ps => (arranged p ins c, scale, depth) :: arranged_net p r ps
  | _, _ => []
  end.
Fixpoint orders_ok (n : nat) (ls : list (pc_cfg * option Q * Z)) (orders : list (list nat)) : Prop :=
  match ls, orders with
  | [], [] => True
  | (c, _, _) :: r, p :: ps => pc_shape c /\ pc_in c = n /\ Permutation p (seq 0 (pc_out c)) /\ (0 < pc_out c)%nat /\ orders_ok (pc_out c) r ps
  | _, _ => False
  end.

(** The stream of the negated bipolar value. *)
Definition negated (xs : list Z) : list Z := map (fun x => 1 - x) xs.
Definition negated_batches (h : list (list (list Z))) : list (list (list Z)) := map (map negated) h.
(** A bipolar layer without bias, at its default scale, rate-coded and deep enough. *)
Definition odd_layer (l : pc_cfg * Z) : Prop := sound l /\ pc_mode (fst l) = Bipolar /\ pc_bias (fst l) = None.
