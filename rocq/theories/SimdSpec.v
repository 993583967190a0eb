(** Meaning of scalar code and of code on SIMD vectors (specification).

    Both are given over an arbitrary algebra of scalar values.  A vector is a
    function from lanes to scalars.  [None] is a program that does not compile:
    an unbound name, a scalar where a vector is needed, a comparison operator or
    a condition on vectors.  As in a compiler, both branches of a conditional
    must make sense.  Evaluation itself never fails, so evaluating both
    branches, as vector code does, has no effect of its own. *)
From Coq Require Import List String Bool ZArith.
From Verif Require Import Syntax Item.
Import ListNotations.
Open Scope string_scope.
Open Scope list_scope.

Record algebra (V : Type) : Type := Algebra {
  a_lit : lit -> V;
  a_const : list string -> V;                       (* associated constants such as f32::NAN *)
  a_un : unop -> V -> V;
  a_bin : binop -> V -> V -> V;
  a_meth : string -> V -> list V -> V;
  a_cast : string -> V -> V;                        (* to a primitive type *)
  a_true : V -> bool
}.
Arguments a_lit {V}. Arguments a_const {V}. Arguments a_un {V}. Arguments a_bin {V}. Arguments a_meth {V}.
Arguments a_cast {V}. Arguments a_true {V}.

Definition obind {A B} (o : option A) (f : A -> option B) : option B := match o with Some x => f x | None => None end.
Notation "'let!' x ':=' a 'in' b" := (obind a (fun x => b)) (at level 200, x name, a at level 100, b at level 200).

Definition upd {A} (env : string -> option A) (n : string) (v : A) : string -> option A :=
  fun m => if String.eqb m n then Some v else env m.

(** The primitive type of the same width as the library. *)
Definition prim_ty (bits : Z) (prefix : string) : string := (prefix ++ (if (bits =? 32)%Z then "32" else "64"))%string.
Definition alias (bits : Z) (t : string) : string :=
  if String.eqb t "uty" then prim_ty bits "u" else if String.eqb t "ity" then prim_ty bits "i"
  else if String.eqb t "fty" then prim_ty bits "f" else t.

(** Associated constants of the primitive float types that the code uses. *)
Definition assoc_const (p : list string) : bool :=
  match p with
  | [a; b] => existsb (String.eqb a) ["f32"; "f64"] && existsb (String.eqb b) ["NAN"; "INFINITY"; "MIN_POSITIVE"]
  | _ => false
  end.

(** ** Scalars *)
Section Scalar.
  Context {V : Type} (A : algebra V) (bits : Z).
  Fixpoint ev (env : string -> option V) (e : expr) : option V :=
    let fix evs (l : list expr) : option (list V) :=
      match l with [] => Some [] | a :: r => let! x := ev env a in let! y := evs r in Some (x :: y) end in
    let fix block (env : string -> option V) (b : list stmt) : option V :=
      match b with
      | [] => None
      | [SExpr a] => ev env a
      | SLocal n _ (Some a) :: r => let! x := ev env a in block (upd env n x) r
      | _ => None
      end in
    match e with
    | ELit l => Some (a_lit A l)
    | EPath p => match p with [n] => env n | _ => if assoc_const p then Some (a_const A p) else None end
    | EUnary op a => let! x := ev env a in Some (a_un A op x)
    | EBinary op a b => let! x := ev env a in let! y := ev env b in Some (a_bin A op x y)
    | EMethodCall r m None args => let! x := ev env r in let! y := evs args in Some (a_meth A m x y)
    | EParen a => ev env a
    | ECast a t => let! x := ev env a in Some (a_cast A (alias bits t) x)
    | EIf c t (Some o) =>
        let! x := ev env c in let! y := block env t in let! z := ev env o in Some (if a_true A x then y else z)
    | EBlock b => block env b
    | _ => None
    end.
End Scalar.

(** ** Vectors *)
Definition comparison (m : string) : option binop :=
  if String.eqb m "lanes_eq" then Some BEq else if String.eqb m "lanes_ne" then Some BNe
  else if String.eqb m "lanes_lt" then Some BLt else if String.eqb m "lanes_le" then Some BLe
  else if String.eqb m "lanes_gt" then Some BGt else if String.eqb m "lanes_ge" then Some BGe else None.

(** The operators [Simd] implements. *)
Definition vector_op (op : binop) : bool :=
  match op with
  | BAdd | BSub | BMul | BDiv | BRem | BBitXor | BBitAnd | BBitOr | BShl | BShr => true
  | _ => false
  end.

(** [splat] takes a scalar of the element type: [Self] is the float vector,
    [Self::UintType] and [Self::IntType] are the integer vectors; an unsuffixed
    integer literal is no float. *)
Definition splat_lit (bits : Z) (path : list string) (l : lit) : bool :=
  match path, l with
  | ["Self"; "splat"], LFloat _ s => String.eqb s "" || String.eqb s (prim_ty bits "f")
  | ["Self"; "splat"], LInt _ s => String.eqb s (prim_ty bits "f")
  | ["Self"; "UintType"; "splat"], LInt _ s => String.eqb s "" || String.eqb s (prim_ty bits "u")
  | ["Self"; "IntType"; "splat"], LInt _ s => String.eqb s "" || String.eqb s (prim_ty bits "i")
  | _, _ => false
  end.

Section Vector.
  Context {L V : Type} (A : algebra V) (bits : Z).
  Notation vec := (L -> V).
  Definition call_method (m : string) (t : option string) (v : vec) (args : list vec) : option vec :=
    match comparison m, t, args with
    | Some op, None, [w] => Some (fun i => a_bin A op (v i) (w i))
    | Some _, _, _ => None
    | None, _, _ =>
        if String.eqb m "select" then
          match t, args with None, [a; b] => Some (fun i => if a_true A (v i) then a i else b i) | _, _ => None end
        else if String.eqb m "cast" then
          match t, args with Some ty, [] => Some (fun i => a_cast A ty (v i)) | _, _ => None end
        else match t with None => Some (fun i => a_meth A m (v i) (map (fun w : vec => w i) args)) | Some _ => None end
    end.

  Fixpoint vev (env : string -> option vec) (e : expr) : option vec :=
    let fix vevs (l : list expr) : option (list vec) :=
      match l with [] => Some [] | a :: r => let! x := vev env a in let! y := vevs r in Some (x :: y) end in
    let fix block (env : string -> option vec) (b : list stmt) : option vec :=
      match b with
      | [] => None
      | [SExpr a] => vev env a
      | SLocal n _ (Some a) :: r => let! x := vev env a in block (upd env n x) r
      | _ => None
      end in
    match e with
    | EPath [n] => env n
    | EUnary UDeref a => None
    | EUnary op a => let! x := vev env a in Some (fun i => a_un A op (x i))
    | EBinary op a b =>
        if vector_op op then let! x := vev env a in let! y := vev env b in Some (fun i => a_bin A op (x i) (y i)) else None
    | EMethodCall r m t args => let! x := vev env r in let! y := vevs args in call_method m t x y
    | EParen a => vev env a
    | ECall (EPath p) [ELit l] => if splat_lit bits p l then Some (fun _ => a_lit A l) else None
    | ECall (EPath ["Self"; "splat"]) [EPath (ty :: c)] =>
        if assoc_const (ty :: c) && String.eqb ty (prim_ty bits "f") then Some (fun _ => a_const A (ty :: c)) else None
    | EBlock b => block env b
    | _ => None
    end.
End Vector.

(** ** The code the claim speaks about *)

Definition reserved (m : string) : bool :=
  match comparison m with Some _ => true | None => existsb (String.eqb m) ["select"; "cast"; "fty"] end.
Definition unary_or_binary (e : expr) : bool := match e with EUnary _ _ | EBinary _ _ _ => true | _ => false end.

Definition lit_ok (bits : Z) (l : lit) : bool :=
  match l with
  | LFloat _ s => String.eqb s "" || String.eqb s (prim_ty bits "f")
  | LInt _ s => String.eqb s (prim_ty bits "f") || String.eqb s (prim_ty bits "u") || String.eqb s (prim_ty bits "i")
  | _ => false
  end.

(** Arithmetic, comparisons, literals of the library's width with a suffix if they
    are integers, names, methods, casts of anything but a prefix operation, blocks
    of lets, and conditionals whose first branch is one expression. *)
Fixpoint lanes_ok (bits : Z) (e : expr) : bool :=
  let fix block (b : list stmt) : bool :=
    match b with
    | [] => false
    | [SExpr a] => lanes_ok bits a
    | SLocal n _ (Some a) :: r => negb (String.eqb n "fty") && lanes_ok bits a && block r
    | _ => false
    end in
  match e with
  | ELit l => lit_ok bits l
  | EPath [n] => negb (String.eqb n "fty")
  | EPath (ty :: c) => assoc_const (ty :: c) && String.eqb ty (prim_ty bits "f")
  | EUnary op a => (match op with UDeref => false | _ => true end) && lanes_ok bits a
  | EBinary op a b => (match op with BAnd | BOr => false | _ => true end) && lanes_ok bits a && lanes_ok bits b
  | EMethodCall r m None args => negb (reserved m) && lanes_ok bits r && forallb (lanes_ok bits) args
  | EParen a => lanes_ok bits a
  | ECast a t => existsb (String.eqb t) ["uty"; "ity"; "fty"] && negb (unary_or_binary a) && lanes_ok bits a
  | EIf c [SExpr t] (Some o) => lanes_ok bits c && lanes_ok bits t && lanes_ok bits o
  | EBlock b => block b
  | _ => false
  end.
Definition body_ok (bits : Z) : list stmt -> bool :=
  fix go (b : list stmt) : bool :=
    match b with
    | [] => false
    | [SExpr a] => lanes_ok bits a
    | SLocal n _ (Some a) :: r => negb (String.eqb n "fty") && lanes_ok bits a && go r
    | _ => false
    end.

(** ** Names

    The names an expression mentions that are not bound by a [let] before (names
    of types, methods and fields are no mentions; of a path, the first segment
    is). *)
Fixpoint unbound (e : expr) (bound : list string) : list string :=
  let fix all (l : list expr) : list string :=
    match l with [] => [] | a :: r => unbound a bound ++ all r end in
  let fix block (b : list stmt) (bound : list string) : list string :=
    match b with
    | [] => []
    | SLocal n _ o :: r => match o with Some a => unbound a bound | None => [] end ++ block r (n :: bound)
    | SExpr a :: r | SSemi a :: r => unbound a bound ++ block r bound
    end in
  match e with
  | ELit _ | EOther _ => []
  | EPath [] => []
  | EPath (n :: _) => if existsb (String.eqb n) bound then [] else [n]
  | EUnary _ a | EParen a | EField a _ | ECast a _ => unbound a bound
  | EBinary _ a b => unbound a bound ++ unbound b bound
  | EMethodCall r _ _ args => unbound r bound ++ all args
  | ECall f args => unbound f bound ++ all args
  | EIf c t o => unbound c bound ++ block t bound ++ match o with Some a => unbound a bound | None => [] end
  | EBlock b => block b bound
  end.

(** ** Files *)
Definition const_defs (items : list item) : list (string * expr) :=
  flat_map (fun it => match it with IConst n _ e => [(n, e)] | _ => [] end) items.
Definition const_names (items : list item) : list string := map fst (const_defs items).
Definition fn_count (items : list item) : nat :=
  List.length (filter (fun it => match it with IFn _ _ _ _ => true | _ => false end) items).

Fixpoint lookup {A} (l : list (string * A)) (n : string) : option A :=
  match l with [] => None | (m, x) :: r => if String.eqb n m then Some x else lookup r n end.

(** The names a scalar function sees: its parameters, then the constants. *)
Definition scope {V} (A : algebra V) (bits : Z) (params : list string) (args : list V) (consts : list (string * expr))
  : string -> option V :=
  fun n =>
    match lookup (combine params args) n with
    | Some x => Some x
    | None => let! e := lookup consts n in ev A bits (fun _ => None) e
    end.
(** The names a method sees. *)
Definition method_scope {L V} (self : L -> V) (params : list string) (args : list (L -> V)) : string -> option (L -> V) :=
  lookup (("self", self) :: combine params args).
