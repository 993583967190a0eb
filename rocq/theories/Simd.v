(** Conversion of a generated file to methods on SIMD vectors:
    doctor-syn/src/codegen/portable_simd.rs.

    Types are text, written without spaces ([Self::UintType]).  [parse_quote!]
    prints trees and parses the text again; the trees printed there come from
    the parser, so this gives the same tree, except where a method call is put
    after an expression without parentheses ([attach]).  Attributes and the fixed
    header of the file are dropped. *)
From Coq Require Import List String Bool ZArith.
From Verif Require Import Res Syntax Item.
Import ListNotations.
Open Scope string_scope.
Open Scope list_scope.

(** [visit_ident_mut], portable_simd.rs:59-71: what an identifier becomes. *)
Definition rename (n : string) : string := if String.eqb n "fty" then "Self" else n.

(** [visit_type_path_mut], portable_simd.rs:81-88 *)
Definition conv_ty (t : string) : string :=
  if String.eqb t "uty" then "Self::UintType" else if String.eqb t "ity" then "Self::IntType"
  else if String.eqb t "fty" then "Self" else t.

Definition splat (path : list string) (e : expr) : expr := ECall (EPath (path ++ ["splat"])) [e].

(** [convert_lit_float], portable_simd.rs:198-210 *)
Definition convert_lit_float (digits suffix : string) : expr :=
  let f := ELit (LFloat digits suffix) in
  if existsb (String.eqb suffix) ["u32"; "u64"] then splat ["UintType"] f
  else if existsb (String.eqb suffix) ["i32"; "i64"] then splat ["IntType"] f
  else splat ["Self"] f.

(** [convert_lit_int], portable_simd.rs:212-224 *)
Definition convert_lit_int (digits suffix : string) : expr :=
  let f := ELit (LInt digits suffix) in
  if existsb (String.eqb suffix) ["u32"; "u64"] then splat ["Self"; "UintType"] f
  else if existsb (String.eqb suffix) ["i32"; "i64"] then splat ["Self"; "IntType"] f
  else splat ["Self"] f.

(** The paths of portable_simd.rs:124-134 *)
Definition special_path (p : list string) : bool :=
  match p with
  | [a; b] => existsb (String.eqb a) ["f32"; "f64"] && existsb (String.eqb b) ["NAN"; "INFINITY"; "MIN_POSITIVE"]
  | _ => false
  end.

(** [convert_binary], portable_simd.rs:164-182 *)
Definition lanes_method (op : binop) : option string :=
  match op with
  | BEq => Some "lanes_eq" | BLt => Some "lanes_lt" | BLe => Some "lanes_le"
  | BNe => Some "lanes_ne" | BGe => Some "lanes_ge" | BGt => Some "lanes_gt"
  | _ => None
  end.
Definition convert_binary (op : binop) (l r : expr) : expr :=
  match lanes_method op with
  | Some m => EMethodCall (EParen l) m None [r]
  | None => EBinary op l r
  end.

(** The tree of the text [#e.m::<t>()]: the call goes to the operand of a prefix
    operator and to the right operand of a binary one; after a cast it does not
    parse (panic). *)
Fixpoint attach (e : expr) (m t : string) : res expr :=
  match e with
  | EUnary op a => let? x := attach a m t in Ok (EUnary op x)
  | EBinary op a b => let? x := attach b m t in Ok (EBinary op a x)
  | ECast _ _ => Panic
  | _ => Ok (EMethodCall e m (Some t) [])
  end.

(** [convert_cast], portable_simd.rs:148-162; any width but 32 is 64 *)
Definition lane_width (bits : Z) (prefix : string) : string := (prefix ++ (if (bits =? 32)%Z then "32" else "64"))%string.
Definition convert_cast (bits : Z) (e : expr) (t : string) : res expr :=
  if existsb (String.eqb t) ["uty"; "Self::UintType"] then attach e "cast" (lane_width bits "u")
  else if existsb (String.eqb t) ["ity"; "Self::IntType"] then attach e "cast" (lane_width bits "i")
  else if existsb (String.eqb t) ["fty"; "Self"] then attach e "cast" (lane_width bits "f")
  else Ok (ECast e t).

(** [convert_call], portable_simd.rs:184-196 *)
Definition method_names : list string := ["sin"; "cos"; "tan"; "exp2"; "powf"; "log2"; "ln"].
Definition convert_call (f : expr) (args : list expr) : res expr :=
  match args with
  | [] => Panic
  | a :: rest =>
      match f with
      | EPath [n] => if existsb (String.eqb n) method_names then Ok (EMethodCall (EParen a) n None rest) else Ok (ECall f args)
      | _ => Ok (ECall f args)
      end
  end.

(** [deblock1], portable_simd.rs:38-45 *)
Definition deblock1 (b : list stmt) : res expr := match b with [SExpr e] => Ok e | _ => Panic end.
(** [deblock2], portable_simd.rs:47-56 *)
Definition deblock2 (e : expr) : expr := match e with EBlock [SExpr a] => a | _ => e end.

(** [visit_expr_mut], portable_simd.rs:91-138, after the children, and
    [visit_local_mut], portable_simd.rs:140-145. *)
Fixpoint conv (bits : Z) (e : expr) : res expr :=
  let fix convs (l : list expr) : res (list expr) :=
    match l with [] => Ok [] | a :: r => let? x := conv bits a in let? y := convs r in Ok (x :: y) end in
  let fix stmts (l : list stmt) : res (list stmt) :=
    match l with [] => Ok [] | s :: r => let? x := conv_stmt bits s in let? y := stmts r in Ok (x :: y) end in
  match e with
  | ELit (LFloat d s) => Ok (convert_lit_float d s)
  | ELit (LInt d s) => Ok (convert_lit_int d s)
  | ELit l => Ok (ELit l)
  | EPath p => let q := map rename p in Ok (if special_path q then splat ["Self"] (EPath q) else EPath q)
  | EUnary op a => let? x := conv bits a in Ok (EUnary op x)
  | EBinary op a b => let? x := conv bits a in let? y := conv bits b in Ok (convert_binary op x y)
  | EMethodCall r m t args =>
      let? x := conv bits r in let? y := convs args in Ok (EMethodCall x (rename m) (option_map conv_ty t) y)
  | EParen a => let? x := conv bits a in Ok (EParen x)
  | EField a m => let? x := conv bits a in Ok (EField x (rename m))
  | ECall f args => let? x := conv bits f in let? y := convs args in convert_call x y
  | ECast a t => let? x := conv bits a in convert_cast bits x (conv_ty t)
  | EIf c t o =>
      let? x := conv bits c in
      let? y := stmts t in
      let? th := deblock1 y in
      match o with
      | Some a => let? z := conv bits a in Ok (EMethodCall (EParen x) "select" None [th; deblock2 z])
      | None => Ok (EIf x y None)
      end
  | EBlock b => let? y := stmts b in Ok (EBlock y)
  | EOther k => Ok (EOther k)
  end
with conv_stmt (bits : Z) (s : stmt) : res stmt :=
  match s with
  | SLocal n t o =>
      match o with
      | Some a => let? x := conv bits a in Ok (SLocal (rename n) None (Some x))
      | None => Ok (SLocal (rename n) None None)
      end
  | SExpr a => let? x := conv bits a in Ok (SExpr x)
  | SSemi a => let? x := conv bits a in Ok (SSemi x)
  end.

Definition rmap {A B} (f : A -> res B) : list A -> res (list B) :=
  fix go (l : list A) : res (list B) :=
    match l with [] => Ok [] | a :: r => let? x := f a in let? y := go r in Ok (x :: y) end.

(** The identifiers [visit_ident_mut] records while these trees are visited; it
    is not called for the names of types. *)
Fixpoint seen (e : expr) : list string :=
  match e with
  | ELit _ | EOther _ => []
  | EPath p => p
  | EUnary _ a | EParen a | ECast a _ => seen a
  | EBinary _ a b => seen a ++ seen b
  | EMethodCall r m _ args => seen r ++ m :: flat_map seen args
  | EField a m => seen a ++ [m]
  | ECall f args => seen f ++ flat_map seen args
  | EIf c t o => seen c ++ flat_map seen_stmt t ++ match o with Some a => seen a | None => [] end
  | EBlock b => flat_map seen_stmt b
  end
with seen_stmt (s : stmt) : list string :=
  match s with
  | SLocal n _ o => n :: match o with Some a => seen a | None => [] end
  | SExpr a | SSemi a => seen a
  end.

(** One method of the resulting [impl]; its first parameter is [self] and its
    result is [Self] ([visit_signature_mut], portable_simd.rs:73-79). *)
Record method : Type := Method { m_name : string; m_params : list (string * string); m_body : list stmt }.

(** The loop over the constants, portable_simd.rs:272-280: [used] is
    [idents_used], [body] the statements so far. *)
Fixpoint add_consts (bits : Z) (consts : list (string * expr)) (used : list string) (body : list stmt) : res (list stmt) :=
  match consts with
  | [] => Ok body
  | (n, e) :: r =>
      if existsb (String.eqb n) used then
        let? x := conv bits e in
        add_consts bits r (used ++ seen e) (SLocal n None (Some x) :: body)
      else add_consts bits r used body
  end.

(** portable_simd.rs:255-288, one [Fn] item.  A function without parameters
    panics. *)
Definition conv_fn (bits : Z) (consts : list (string * expr)) (name : string) (params : list (string * string)) (body : list stmt)
  : res method :=
  match params with
  | [] => Panic
  | (arg, _) :: rest =>
      let block := SLocal arg None (Some (EPath ["self"])) :: body in
      let? b := rmap (conv_stmt bits) block in
      let used := name :: map fst params ++ flat_map seen_stmt block in
      let? b' := add_consts bits consts used b in
      Ok (Method (rename name) (map (fun p => (rename (fst p), conv_ty (snd p))) rest) b')
  end.

(** [to_simd], portable_simd.rs:241-318: [consts] are the constants so far. *)
Fixpoint to_simd_from (bits : Z) (consts : list (string * expr)) (items : list item) : res (list method) :=
  match items with
  | [] => Ok []
  | IConst n _ e :: r => to_simd_from bits (consts ++ [(n, e)]) r
  | IFn n ps _ b :: r => let? m := conv_fn bits consts n ps b in let? ms := to_simd_from bits consts r in Ok (m :: ms)
  | _ :: r => to_simd_from bits consts r
  end.
Definition to_simd (bits : Z) (items : list item) : res (list method) := to_simd_from bits [] items.
