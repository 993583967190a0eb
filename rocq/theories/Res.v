(** Outcomes of Rust functions: a value, an [Err] of the crate's error type,
    or a panic.  Cites doctor-syn/src/error.rs:4-23 (enum Error; payloads
    such as spans and messages are dropped). *)
From Coq Require Import List.
Import ListNotations.

Inductive error : Type :=
| UnsupportedExpr
| UnsupportedCodegen
| UndefinedVariable
| NotFound
| CouldNotConvertToExpression
| CouldNotConvertFromExpression
| CouldNotParse
| CouldNotEvaluate
| WrongNumberOfTerms
| Expected32or64bits
| Overflow
| OutOfFuel.

(** [OutOfFuel] is not an error of the crate: it marks a loop of the model that
    was cut off.  No code modelled here catches an error, so it always surfaces;
    theorems say when it cannot occur. *)
Inductive res (A : Type) : Type :=
| Ok (a : A)
| Err (e : error)
| Panic.
Arguments Ok {A} a.
Arguments Err {A} e.
Arguments Panic {A}.

(** The [?] operator. *)
Definition rbind {A B} (x : res A) (f : A -> res B) : res B :=
  match x with Ok a => f a | Err e => Err e | Panic => Panic end.

Definition rmap {A B} (f : A -> B) (x : res A) : res B :=
  rbind x (fun a => Ok (f a)).

Notation "'let?' x ':=' a 'in' b" := (rbind a (fun x => b))
  (at level 200, x name, a at level 100, b at level 200).

(** [iter().map(f).collect::<Result<Vec<_>>>()]: stops at the first failure. *)
Fixpoint rseq {A} (l : list (res A)) : res (list A) :=
  match l with
  | [] => Ok []
  | x :: r => let? a := x in let? b := rseq r in Ok (a :: b)
  end.

Definition is_ok {A} (x : res A) : bool := match x with Ok _ => true | _ => false end.
Definition is_panic {A} (x : res A) : bool := match x with Panic => true | _ => false end.

(** [Option::ok_or_else(..)?] *)
Definition ok_or {A} (e : error) (x : option A) : res A :=
  match x with Some a => Ok a | None => Err e end.
