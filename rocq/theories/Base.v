(** Common notions of the model: machine words, arrays, ring buffers and an
    outcome type that makes undefined behaviour explicit. *)
Require Import List Arith NArith ZArith Bool.
Import ListNotations.
Open Scope N_scope.

(** uint32_t arithmetic wraps modulo 2^32 (C++ unsigned semantics). *)
Definition two32 : N := 4294967296.
Definition w32 (n : N) : N := n mod two32.
Definition add32 (a b : N) : N := w32 (a + b).
Definition sub32 (a b : N) : N := w32 (a + two32 - b).   (* for b < 2^32 *)

(** Outcome of a model function: a value, or undefined behaviour (out-of-bounds
    access, undefined conversion, signed overflow). *)
Inductive res (A : Type) : Type :=
| Ok (a : A)
| UB.
Arguments Ok {A} a.
Arguments UB {A}.

Definition rbind {A B} (r : res A) (f : A -> res B) : res B :=
  match r with Ok a => f a | UB => UB end.
Notation "x <- r ;; f" := (rbind r (fun x => f)) (at level 61, r at next level, right associativity).

(** Fixed-size arrays are lists; [upd] is a store. *)
Fixpoint upd {A} (l : list A) (i : nat) (x : A) : list A :=
  match l, i with
  | [], _ => []
  | _ :: t, O => x :: t
  | h :: t, S j => h :: upd t j x
  end.

Definition rget {A} (d : A) (l : list A) (i : N) : A := nth (N.to_nat i) l d.
Definition rset {A} (l : list A) (i : N) (x : A) : list A := upd l (N.to_nat i) x.

(** The logical contents, oldest first, of a ring buffer stored in array [l]
    with read index [head] and fill level [level]. *)
Definition contents {A} (d : A) (l : list A) (cap head level : N) : list A :=
  map (fun i => rget d l ((head + N.of_nat i) mod cap)) (seq 0 (N.to_nat level)).

Definition b2n (b : bool) : N := if b then 1 else 0.
