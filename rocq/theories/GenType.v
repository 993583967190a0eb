(** Static types of generated items: what rustc's type checker asks of the part
    of Rust that libmgen emits (specification, independent of the code).

    Stricter than rustc: integer constants need a suffix, a float that may be an
    unsuffixed literal is no receiver of a method, constants do not call
    functions, and floats have the width of the library. *)
From Coq Require Import List String Bool ZArith Ascii.
From Verif Require Import Res Dec DecStr Syntax Item GenSem.
Import ListNotations.
Open Scope string_scope.
Open Scope list_scope.
Open Scope Z_scope.

(** [SLitF]: a float, or a float literal whose type is still open; [SLitI z]: the
    integer literal [z], its type still open. *)
Inductive sty : Type := SFlt | SInt (t : ity) | SBool | SLitF | SLitI (z : Z) | SPair (a b : sty).

(** What the rest of a program sees of an item. *)
Inductive decl : Type := DConst (t : string) | DType (t : string) | DFn (ps : list string) (ret : string).
Definition decl_of (i : item) : option decl :=
  match i with
  | IConst _ t _ => Some (DConst t)
  | IType _ t => Some (DType t)
  | IFn _ ps r _ => Some (DFn (map snd ps) r)
  | IOther _ => None
  end.
Definition decls (lib : list item) (n : string) : option decl :=
  match find_item lib n with Some i => decl_of i | None => None end.

Definition is_float (s : sty) : bool := match s with SFlt | SLitF => true | _ => false end.
Definition bits_int (bits : Z) : ity := if bits =? 32 then U32 else U64.

Section Check.
  Variable bits : Z.
  Variable D : string -> option decl.
  Variable hole : string -> list (string * sty) -> option sty.

  Definition ty_of (n : string) : option ty :=
    match prim n with Some t => Some t | None => match D n with Some (DType t) => prim t | _ => None end end.
  (** a value of type [s] where the type [t] is declared *)
  Definition declared (t : option ty) (s : sty) : option sty :=
    match t, s with
    | Some (TFlt w), (SFlt | SLitF) => if w =? bits then Some SFlt else None
    | Some (TInt t), SInt u => if ity_eqb t u then Some (SInt t) else None
    | Some (TInt t), SLitI z => if in_range t z then Some (SInt t) else None
    | Some TBool, SBool => Some SBool
    | _, _ => None
    end.
  Definition of_ty (t : option ty) : option sty :=
    match t with
    | Some (TFlt w) => if w =? bits then Some SFlt else None
    | Some (TInt t) => Some (SInt t)
    | Some TBool => Some SBool
    | None => None
    end.
  Definition pair_text : string := "(fty, fty)".
  Definition ret_of (r : string) : option sty :=
    if String.eqb r pair_text then match of_ty (ty_of "fty") with Some s => Some (SPair s s) | None => None end
    else of_ty (ty_of r).

  Definition is_arith (op : binop) : bool := match op with BAdd | BSub | BMul | BDiv => true | _ => false end.
  Definition is_int_op (op : binop) : bool := match op with BAdd | BSub | BMul | BBitAnd | BBitOr | BBitXor => true | _ => false end.
  Definition is_shift (op : binop) : bool := match op with BShl | BShr => true | _ => false end.
  Definition bin_ty (op : binop) (a b : sty) : option sty :=
    if is_shift op then
      match a, b with SInt t, (SInt _ | SLitI _) => Some (SInt t) | _, _ => None end
    else
      let ints t := if is_rel op then Some SBool else if is_int_op op then Some (SInt t) else None in
      match a, b with
      | SFlt, (SFlt | SLitF) | SLitF, SFlt => if is_rel op then Some SBool else if is_arith op then Some SFlt else None
      | SLitF, SLitF => if is_rel op then Some SBool else if is_arith op then Some SLitF else None
      | SInt t, SInt u => if ity_eqb t u then ints t else None
      | SInt t, SLitI z | SLitI z, SInt t => if in_range t z then ints t else None
      | _, _ => None
      end.
  Definition un_ty (op : unop) (a : sty) : option sty :=
    match op, a with
    | UNeg, (SFlt | SLitF) => Some a
    | UNeg, SLitI z => Some (SLitI (- z))
    | UNeg, SInt t => if signed t then Some a else None
    | UNot, SBool => Some SBool
    | _, _ => None
    end.
  Definition cast_ty (t : option ty) (a : sty) : option sty :=
    match a with
    | SFlt | SLitF | SInt _ | SLitI _ => match t with Some TBool => None | _ => of_ty t end
    | _ => None
    end.
  (** methods of floats besides to_bits, with the number of their arguments *)
  Definition float_methods : list (string * nat) :=
    [("abs", 0%nat); ("sqrt", 0%nat); ("recip", 0%nat); ("ln", 0%nat); ("copysign", 1%nat); ("mul_add", 2%nat)].
  Definition method_ty (m : string) (recv : sty) (args : list sty) : option sty :=
    match recv with
    | SFlt =>
        if String.eqb m "to_bits" then match args with [] => Some (SInt (bits_int bits)) | _ => None end
        else if existsb (fun p => String.eqb m (fst p) && Nat.eqb (List.length args) (snd p)) float_methods && forallb is_float args
        then Some SFlt else None
    | SInt t =>
        if String.eqb m "wrapping_mul" then
          match args with
          | [SInt u] => if ity_eqb t u then Some recv else None
          | [SLitI z] => if in_range t z then Some recv else None
          | _ => None
          end
        else None
    | _ => None
    end.
  Definition path_ty (a b : string) : option sty :=
    match prim a with
    | Some (TFlt w) => if (w =? bits) && existsb (String.eqb b) ["INFINITY"; "NAN"; "MIN_POSITIVE"] then Some SFlt else None
    | _ => None
    end.
  Definition lit_ty (l : lit) : option sty :=
    match l with
    | LInt d s =>
        match parse_dec (list_ascii_of_string d) with
        | Some n =>
            if negb (scale n =? 0) then None
            else if String.eqb s "" then Some (SLitI (mant n))
            else match prim s with
                 | Some (TInt t) => if in_range t (mant n) then Some (SInt t) else None
                 | Some (TFlt w) => if w =? bits then Some SFlt else None
                 | _ => None
                 end
        | None => None
        end
    | LFloat d s =>
        match parse_dec (list_ascii_of_string d) with
        | Some _ =>
            if String.eqb s "" then Some SLitF
            else match prim s with Some (TFlt w) => if w =? bits then Some SFlt else None | _ => None end
        | None => None
        end
    | LBool _ => Some SBool
    | LOther _ => None
    end.
  Fixpoint slookup (n : string) (env : list (string * sty)) : option sty :=
    match env with [] => None | (m, v) :: r => if String.eqb m n then Some v else slookup n r end.
  Definition const_ty (n : string) : option sty := match D n with Some (DConst t) => of_ty (ty_of t) | _ => None end.
  Fixpoint args_ok (ps : list string) (args : list sty) : bool :=
    match ps, args with
    | [], [] => true
    | p :: ps, a :: r => match declared (ty_of p) a with Some _ => args_ok ps r | None => false end
    | _, _ => false
    end.
  Definition call_ty (f : string) (args : list sty) : option sty :=
    match D f with Some (DFn ps r) => if args_ok ps args then ret_of r else None | _ => None end.
  (** the two branches of an [if] *)
  Definition join (a b : sty) : option sty :=
    match a, b with
    | SFlt, SFlt => Some SFlt
    | SFlt, SLitF | SLitF, SFlt | SLitF, SLitF => Some SLitF
    | SInt t, SInt u => if ity_eqb t u then Some a else None
    | SBool, SBool => Some SBool
    | _, _ => None
    end.

  Fixpoint typeof (env : list (string * sty)) (e : expr) {struct e} : option sty :=
    let fix types (l : list expr) : option (list sty) :=
      match l with
      | [] => Some []
      | a :: r => match typeof env a with Some s => match types r with Some q => Some (s :: q) | None => None end | None => None end
      end in
    let fix block (env : list (string * sty)) (l : list stmt) : option sty :=
      match l with
      | [] => None
      | [SExpr a] => typeof env a
      | SLocal n t (Some a) :: r =>
          match typeof env a with
          | Some s =>
              match match t with Some t => declared (ty_of t) s | None => Some s end with
              | Some s => block ((n, s) :: env) r
              | None => None
              end
          | None => None
          end
      | (SSemi a | SExpr a) :: r => match typeof env a with Some _ => block env r | None => None end
      | SLocal _ _ None :: _ => None
      end in
    match e with
    | ELit l => lit_ty l
    | EParen a => typeof env a
    | EPath [n] => match slookup n env with Some s => Some s | None => const_ty n end
    | EPath [a; b] => path_ty a b
    | EUnary op a => match typeof env a with Some s => un_ty op s | None => None end
    | EBinary op a b => match typeof env a, typeof env b with Some s, Some t => bin_ty op s t | _, _ => None end
    | ECast a t => match typeof env a with Some s => cast_ty (ty_of t) s | None => None end
    | EMethodCall r m None args => match typeof env r, types args with Some s, Some l => method_ty m s l | _, _ => None end
    | ECall (EPath [f]) args =>
        match slookup f env, types args with
        | None, Some l => if String.eqb f "(,)" then match l with [a; b] => Some (SPair a b) | _ => None end else call_ty f l
        | _, _ => None
        end
    | ECall (EPath [t; f]) args =>
        match slookup t env, ty_of t, types args with
        | None, Some (TFlt w), Some [SInt u] =>
            if String.eqb f "from_bits" && (w =? bits) && ity_eqb u (bits_int bits) then Some SFlt else None
        | _, _, _ => None
        end
    | EIf c t (Some f) =>
        match typeof env c, block env t, typeof env f with Some SBool, Some a, Some b => join a b | _, _, _ => None end
    | EBlock l => block env l
    | EOther k => hole k env
    | _ => None
    end.

  Fixpoint params_ty (ps : list (string * string)) : option (list (string * sty)) :=
    match ps with
    | [] => Some []
    | (n, t) :: r => match of_ty (ty_of t), params_ty r with Some s, Some q => Some ((n, s) :: q) | _, _ => None end
    end.
  (** the body of a function with result [r] has type [s] *)
  Definition returns (r : string) (s : sty) : bool :=
    if String.eqb r pair_text then match s, of_ty (ty_of "fty") with SPair SFlt SFlt, Some SFlt => true | _, _ => false end
    else match declared (ty_of r) s with Some _ => true | None => false end.
End Check.

Definition no_hole (k : string) (env : list (string * sty)) : option sty := None.
(** constants see constants and types *)
Definition no_fn (D : string -> option decl) (n : string) : option decl := match D n with Some (DFn _ _) => None | d => d end.

Section Items.
  Variable bits : Z.
  Variable D : string -> option decl.
  Variable hole : string -> list (string * sty) -> option sty.
  Definition item_ok (i : item) : bool :=
    match i with
    | IConst _ t e =>
        match typeof bits (no_fn D) hole [] e with
        | Some s => match s with SLitI _ => false | _ => match declared bits (ty_of D t) s with Some _ => true | None => false end end
        | None => false
        end
    | IType _ t => match prim t with Some _ => true | None => false end
    | IFn _ ps r b =>
        match params_ty bits D ps with
        | Some env => match typeof bits D hole env (EBlock b) with Some s => returns bits D r s | None => false end
        | None => false
        end
    | IOther _ => false
    end.
End Items.
(** every item of the library type-checks against the others' declarations *)
Definition well_typed (bits : Z) (lib : list item) : Prop := forall i, In i lib -> item_ok bits (decls lib) no_hole i = true.
