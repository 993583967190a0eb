(** The formatter of generated Rust code: doctor-syn/src/codegen/rust.rs.

    Token streams are those of proc_macro2 outside of a procedural macro (its
    fallback implementation).  [TPunct op] stands for the run of [Punct] tokens
    that make up the operator [op]: all but the last are [Joint], the last is
    [Alone] (this is how syn prints operators).  [TLife s] is the pair of a
    [Joint] quote and an identifier. *)
From Coq Require Import List String Ascii Bool Arith.
From Verif Require Import Res.
Import ListNotations.
Open Scope string_scope.

Inductive delim : Type := DParen | DBrace | DBracket | DNone.

Inductive tt : Type :=
| TGroup (d : delim) (ts : list tt)
| TWord (s : string)
| TPunct (op : string)
| TLit (s : string)
| TLife (s : string).

(** ** proc_macro2's Display (external) *)

Definition open_text (d : delim) : string :=
  match d with DParen => "(" | DBrace => "{ " | DBracket => "[" | DNone => "" end.
Definition close_text (d : delim) (empty : bool) : string :=
  match d with DParen => ")" | DBrace => if empty then "}" else " }" | DBracket => "]" | DNone => "" end.
Definition is_empty {A} (l : list A) : bool := match l with [] => true | _ => false end.

(** [TokenTree::to_string]; tokens of a stream are separated by one space. *)
Fixpoint show (t : tt) : string :=
  match t with
  | TGroup d ts => open_text d ++ String.concat " " (map show ts) ++ close_text d (is_empty ts)
  | TWord s | TPunct s | TLit s => s
  | TLife s => "'" ++ s
  end.

(** ** rust.rs *)

Definition newline : string := String (ascii_of_nat 10) EmptyString.

Fixpoint spaces (n : nat) : string := match n with O => "" | S n => " " ++ spaces n end.

(** [indent], rust.rs:3-6: a slice of a constant of 60 spaces; slicing past its
    end panics. *)
Definition indent (depth : nat) : res string :=
  if Nat.leb (depth * 2) 60 then Ok (spaces (depth * 2)) else Panic.

(** Concatenation of results, left to right. *)
Definition rcat (a b : res string) : res string := let? x := a in let? y := b in Ok (x ++ y).
Infix "+++" := rcat (at level 60, right associativity).
Fixpoint rcats (l : list (res string)) : res string :=
  match l with [] => Ok "" | x :: r => x +++ rcats r end.

Definition at_top (depth : nat) : string := match depth with O => newline | S _ => "" end.

(** [append_token], rust.rs:8-63: the text appended for one token tree.  Only a
    lone [;] is followed by a line break; in a run of punctuation each character
    is appended as it is. *)
Fixpoint append_token (t : tt) (depth : nat) : res string :=
  match t with
  | TGroup DParen _ => Ok (show t)
  | TGroup DBrace ts =>
      Ok ("{" ++ newline) +++ indent (S depth) +++ rcats (map (fun t => append_token t (S depth)) ts)
      +++ Ok newline +++ indent depth +++ Ok ("}" ++ newline) +++ indent depth +++ Ok (at_top depth)
  | TGroup DBracket _ => Ok (show t ++ at_top depth)
  | TGroup DNone _ => Ok (show t)
  | TWord s => Ok (s ++ " ")
  | TLife s => Ok ("'" ++ s ++ " ")
  | TPunct op => if String.eqb op ";" then Ok (op ++ newline ++ at_top depth) +++ indent depth else Ok op
  | TLit s => Ok s
  end.

(** [format_token_stream], rust.rs:66-72 *)
Definition format_token_stream (ts : list tt) : res string := rcats (map (fun t => append_token t 0) ts).
