(** Vocabulary for constructor checks. *)
From Coq Require Import String List ZArith QArith.
Require Export Verif.Base Verif.NameSpec Verif.GenModel Verif.UtilsModel.
Open Scope string_scope. Open Scope list_scope. Open Scope Z_scope.

Definition pow2 (n : Z) : Prop := exists k : nat, n = 2 ^ Z.of_nat k.
(** The mode a name stands for. *)
Definition names_mode (name : string) (m : mode) : Prop :=
  m = Unipolar /\ named name ["unipolar"] \/ m = Bipolar /\ named name ["bipolar"].
Definition names_rounding (name : string) (r : rounding) : Prop :=
  r = RRound /\ named name ["round"] \/ r = RCeil /\ named name ["ceil"] \/ r = RFloor /\ named name ["floor"].
(** A parameter given from outside must satisfy [ok] and replaces the initial one. *)
Definition replaced {A : Type} (ok : A -> Prop) (ext : option A) (init a : A) : Prop :=
  (ext = None /\ a = init) \/ (ext = Some a /\ ok a).
(** An optional parameter. *)
Definition replaced_if {A : Type} (present : bool) (ok : A -> Prop) (ext : option A) (init : A) (a : option A) : Prop :=
  (present = false /\ a = None) \/ (present = true /\ exists x, a = Some x /\ replaced ok ext init x).
Definition vec {A : Type} (n : nat) (v : list A) : Prop := List.length v = n.
Definition mat {A : Type} (r c : nat) (m : list (list A)) : Prop := List.length m = r /\ Forall (vec c) m.
Definition kern {A : Type} (o c h w : nat) (k : list (list (list (list A)))) : Prop :=
  List.length k = o /\ Forall (fun f => List.length f = c /\ Forall (mat h w) f) k.
(** The hardware configuration HUB layers insist on. *)
Definition hub_config (rngi rngw : string) (qi qw : Q) (rnd : string) (signmag : bool) : Prop :=
  ~ (named rngi ["race"; "tc"; "race10"; "tc10"] /\ named rngw ["race"; "tc"; "race10"; "tc10"]) /\
  (0 < qi <= 1)%Q /\ (0 < qw <= 1)%Q /\ named rnd ["round"; "ceil"; "floor"] /\ signmag = true.
(** What torch.nn.Conv2d itself accepts. *)
Definition torch_accepts (ci co groups : nat) (padding_mode : string) : Prop :=
  (ci mod groups = 0)%nat /\ (co mod groups = 0)%nat /\ In padding_mode ["zeros"; "reflect"; "replicate"; "circular"].
