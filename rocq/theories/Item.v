(** Items of a generated file (the part of syn 1.0's [Item] that libmgen
    emits) and the names they mention. *)
From Coq Require Import List String Bool ZArith Ascii.
From Verif Require Import Syntax DecStr.
Import ListNotations.
Open Scope string_scope.
Open Scope list_scope.

(** Types are kept as text. *)
Inductive item : Type :=
| IConst (name ty : string) (e : expr)
| IType (name ty : string)
| IFn (name : string) (params : list (string * string)) (ret : string) (body : list stmt)
| IOther (kind : string).

Definition item_name (i : item) : option string :=
  match i with IConst n _ _ | IType n _ | IFn n _ _ _ => Some n | IOther _ => None end.

(** [format_ident!("f{}", bits)] *)
Definition width (prefix : string) (bits : Z) : string := prefix ++ string_of_list_ascii (zdigits bits).

(** ** Names an item mentions that are not bound inside of it *)
Section Free.
  Definition is_bound (bound : list string) (n : string) : bool := existsb (String.eqb n) bound.
  Definition ty_name (t : option string) : list string := match t with Some n => [n] | None => [] end.
  Fixpoint free (e : expr) (bound : list string) : list string :=
    let fix frees (l : list expr) : list string :=
      match l with [] => [] | a :: r => free a bound ++ frees r end in
    let fix stmts (l : list stmt) (bound : list string) : list string :=
      match l with
      | [] => []
      | SLocal n t i :: r => ty_name t ++ match i with Some a => free a bound | None => [] end ++ stmts r (n :: bound)
      | SExpr a :: r | SSemi a :: r => free a bound ++ stmts r bound
      end in
    match e with
    | ELit _ | EOther _ => []
    | EPath p => match p with [] => [] | n :: _ => if is_bound bound n then [] else [n] end
    | EUnary _ a | EParen a | EField a _ => free a bound
    | EBinary _ a b => free a bound ++ free b bound
    | EMethodCall r _ t args => free r bound ++ ty_name t ++ frees args
    | ECall f args => free f bound ++ frees args
    | ECast a t => t :: free a bound
    | EIf c t o => free c bound ++ stmts t bound ++ match o with Some a => free a bound | None => [] end
    | EBlock b => stmts b bound
    end.
  Definition item_free (i : item) : list string :=
    match i with
    | IConst _ t e => t :: free e []
    | IType _ t => [t]
    | IFn _ ps r b => map snd ps ++ r :: free (EBlock b) (map fst ps)
    | IOther _ => []
    end.
End Free.
