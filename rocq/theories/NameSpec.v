(** Vocabulary for configuration names: equality of strings up to the case of ASCII letters. *)
From Coq Require Import String Ascii List.
Require Export Verif.Base.

(** The same character, or an upper-case letter A..Z (65..90) and its lower-case partner 32 codes further on. *)
Definition same_letter (a b : ascii) : Prop :=
  a = b \/
  (65 <= nat_of_ascii a <= 90 /\ nat_of_ascii b = nat_of_ascii a + 32)%nat \/
  (65 <= nat_of_ascii b <= 90 /\ nat_of_ascii a = nat_of_ascii b + 32)%nat.
Inductive same_name : string -> string -> Prop :=
| sn_nil : same_name EmptyString EmptyString
| sn_cons : forall a b s t, same_letter a b -> same_name s t -> same_name (String a s) (String b t).
(** [name] is one of [l], whatever its case. *)
Definition named (name : string) (l : list string) : Prop := exists n, In n l /\ same_name name n.
Open Scope string_scope.
(** Number of magnitude bits of an operand declared in a format: fixed point keeps all but the sign bit of its width, the floating-point
    formats have 7, 10 and 23 stored fraction bits and the hidden one. *)
Definition significand (format : string) (width n : nat) : Prop :=
  named format ("fxp" :: nil) /\ n = (width - 1)%nat \/
  named format ("bfloat16" :: nil) /\ n = (7 + 1)%nat \/
  named format ("float16" :: nil) /\ n = (10 + 1)%nat \/
  named format ("float32" :: nil) /\ n = (23 + 1)%nat.
