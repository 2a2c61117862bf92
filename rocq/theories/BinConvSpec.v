(** What a two-dimensional convolution is, stated on entries. *)
Require Export Verif.Base Verif.Spec.
Open Scope Z_scope.

(** Sum over the taps of a kernel. *)
Definition sumq_taps (C kh kw : nat) (f : nat -> nat -> nat -> Q) : Q :=
  qsum (map (fun c => qsum (map (fun i => qsum (map (fun j => f c i j) (seq 0 kw))) (seq 0 kh))) (seq 0 C)).

(** The value under tap (k, i, j) of the window at (y, x): strides s, dilations d, a border of p zeros; the first components are
    vertical. *)
Definition under (s d p : nat * nat) (H W : nat) (t : list (list (list (list Q)))) (n y x k i j : nat) : Q :=
  surrounded 0%Q H W t n k (Z.of_nat (y * fst s + i * fst d) - Z.of_nat (fst p))
                           (Z.of_nat (x * snd s + j * snd d) - Z.of_nat (snd p)).

(** The pixels (v, u) of an image that lie under some tap of some window. *)
Definition covered (kernel s d p : nat * nat) (ho wo v u : nat) : Prop :=
  exists y x i j, (y < ho)%nat /\ (x < wo)%nat /\ (i < fst kernel)%nat /\ (j < snd kernel)%nat /\
    (y * fst s + i * fst d = v + fst p)%nat /\ (x * snd s + j * snd d = u + snd p)%nat.

(** Every value under a tap, window by window. *)
Definition under_all (kernel s d p : nat * nat) (N C H W ho wo : nat) (t : list (list (list (list Q)))) : list Q :=
  flat_map (fun n => flat_map (fun y => flat_map (fun x =>
    flat_map (fun k => flat_map (fun i => map (fun j => under s d p H W t n y x k i j)
      (seq 0 (snd kernel))) (seq 0 (fst kernel))) (seq 0 C)) (seq 0 wo)) (seq 0 ho)) (seq 0 N).
