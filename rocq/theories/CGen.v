(** Translation of Rust items into C text: doctor-syn/src/codegen/c.rs.

    [CVisitor] walks syn's tree with a stack of strings.  Every visitor method
    pushes its text and every caller pops it with [tos], which panics on an
    empty stack (c.rs:37-39). *)
From Coq Require Import List String Ascii Bool.
From Verif Require Import Res Syntax Item.
Import ListNotations.
Open Scope string_scope.
Open Scope list_scope.

(** ** The trees [CVisitor] distinguishes

    [CMarker k] stands for every node whose method pushes the constant text [k]
    without visiting its children: field, group, index, match, tuple, closure,
    loops, macros and so on ("<<...>>") and [break] ("break;"), c.rs:307-683.
    [CVerbatim] is syn's [Verbatim], for which the default visitor does nothing.
    A path is the list of its segments' names; generic arguments and a leading
    [::] are not represented.  The string of [CFloat]/[CInt] is
    [base10_digits()], the suffix is ignored (c.rs:936-950). *)
Inductive assign_op : Type := AAdd | ASub | AMul | ADiv | ARem | ABitXor | ABitAnd | ABitOr | AShl | AShr.

Inductive cty : Type :=
| CTyPath (p : list string)
| CTyMarker (k : string)
| CTyVerbatim.

Inductive cpat : Type :=
| CPatIdent (n : string)
| CPatTyped (p : cpat) (t : cty)
| CPatMarker (k : string)
| CPatVerbatim.

Inductive cexpr : Type :=
| CNum (digits : string)
| CPath (p : list string)
| CUnary (op : unop) (e : cexpr)
| CBinary (op : binop) (l r : cexpr)
| CMethodCall (recv : cexpr) (m : string) (args : list cexpr)
| CParen (e : cexpr)
| CCall (f : cexpr) (args : list cexpr)
| CCast (e : cexpr) (t : cty)
| CIf (c : cexpr) (thn : list cstmt) (els : option cexpr)
| CBlock (b : list cstmt)
| CArray (es : list cexpr)
| CAssign (l r : cexpr)
| CAssignOp (op : assign_op) (l r : cexpr)
| CMarker (k : string)
| CVerbatim
with cstmt : Type :=
| CLocal (p : cpat) (init : option cexpr)
| CExprStmt (e : cexpr)
| CSemi (e : cexpr)
| CItemStmt (i : citem)
with citem : Type :=
| CConst (name : string) (t : cty) (e : cexpr)
| CType (name : string) (t : cty)
| CFn (name : string) (params : list (cpat + string)) (ret : option cty) (body : list cstmt)
| CItemMarker (k : string)
| CItemVerbatim.

(** c.rs:10-13 *)
Record copts : Type := COpts { prefix : string; float_suffix : string }.

(** ** Text of the leaves *)

(** [visit_bin_op], c.rs:109-198 *)
Definition binop_text (op : binop) : string :=
  match op with
  | BAdd => "+" | BSub => "-" | BMul => "*" | BDiv => "/" | BRem => "%"
  | BAnd => "&&" | BOr => "||" | BBitXor => "^" | BBitAnd => "&" | BBitOr => "|"
  | BShl => "<<" | BShr => ">>"
  | BEq => "==" | BLt => "<" | BLe => "<=" | BNe => "!=" | BGe => ">=" | BGt => ">"
  end.
Definition assign_op_text (op : assign_op) : string :=
  match op with
  | AAdd => "+=" | ASub => "-=" | AMul => "*=" | ADiv => "/=" | ARem => "%="
  | ABitXor => "^=" | ABitAnd => "&=" | ABitOr => "|=" | AShl => "<<=" | AShr => ">>="
  end.

(** [visit_un_op], c.rs:1411-1426 *)
Definition unop_text (op : unop) : string := match op with UDeref => "*" | UNot => "!" | UNeg => "-" end.

(** [visit_path], c.rs:1136-1141: [to_string().replace(" :: ", "_")] *)
Definition path_text (p : list string) : string := String.concat "_" p.

(** [translate_basic_types], c.rs:1512-1523 *)
Definition basic_type (name : string) : string :=
  if String.eqb name "bool" then "int"
  else if String.eqb name "i32" then "int"
  else if String.eqb name "i64" then "long long"
  else if String.eqb name "u32" then "unsigned int"
  else if String.eqb name "u64" then "unsigned long long"
  else if String.eqb name "f32" then "float"
  else if String.eqb name "f64" then "double"
  else name.

Definition nl : string := String (ascii_of_nat 10) EmptyString.
Definition commas_text (l : list string) : string := String.concat ", " l.

(** c.rs:206-215 *)
Definition block_text (stmts : list string) : string :=
  ("{" ++ nl ++ String.concat (";" ++ nl) stmts ++ nl ++ "}")%string.

(** c.rs:357-379 *)
Definition call_text (o : copts) (f args : string) : string :=
  if String.eqb f "fty_from_bits"
  then ("({ union { fty f; uty u; } u; u.u = (" ++ args ++ "); u.f; })")%string
  else (prefix o ++ f ++ "(" ++ args ++ ")")%string.

(** c.rs:498-503; [args] has the receiver at index 0.  Indexing past the end
    panics. *)
Definition method_text (o : copts) (m : string) (args : list string) : res string :=
  if String.eqb m "round" then Ok (m ++ float_suffix o ++ "(" ++ commas_text args ++ ")")%string
  else if String.eqb m "mul_add" then
    match args with
    | a :: b :: c :: _ => Ok ("((" ++ a ++ nl ++ ") * (" ++ b ++ ") + (" ++ c ++ "))")%string
    | _ => Panic
    end
  else Ok (m ++ "(" ++ commas_text args ++ ")")%string.

(** ** The visitor *)

Definition stack := list string.

(** [tos], c.rs:37-39 *)
Definition tos (s : stack) : res (string * stack) :=
  match s with [] => Panic | x :: r => Ok (x, r) end.

(** Visit a node and take its text off the stack. *)
Definition pop_after (r : res stack) : res (string * stack) := rbind r tos.

Definition visit_ty (t : cty) (s : stack) : res stack :=
  match t with
  | CTyPath p =>               (* visit_type_path, c.rs:1371-1379 *)
      let? x := tos (path_text p :: s) in Ok (basic_type (fst x) :: snd x)
  | CTyMarker k => Ok (k :: s)
  | CTyVerbatim => Ok s
  end.

Fixpoint visit_pat (p : cpat) (s : stack) : res stack :=
  match p with
  | CPatIdent n => Ok (n :: s)                               (* c.rs:1043-1048 *)
  | CPatTyped p t =>                                         (* c.rs:1116-1128 *)
      let? a := pop_after (visit_pat p s) in
      let? b := pop_after (visit_ty t (snd a)) in
      Ok ((fst b ++ " " ++ fst a)%string :: snd b)
  | CPatMarker k => Ok (k :: s)
  | CPatVerbatim => Ok s
  end.

(** Visit every element, popping each text: the [for] loops of c.rs:210-213,
    274-279, 362-367, 492-496, 653-656, 1224-1231. *)
Section Each.
  Context {A : Type}.
  Variable visit : A -> stack -> res stack.
  Fixpoint each (l : list A) (s : stack) : res (list string * stack) :=
    match l with
    | [] => Ok ([], s)
    | x :: r =>
        let? a := pop_after (visit x s) in
        let? b := each r (snd a) in
        Ok (fst a :: fst b, snd b)
    end.
End Each.

(** [visit_fn_arg] (c.rs:661-664): a typed argument, or [self] ("<<receiver>>"). *)
Definition visit_param (a : cpat + string) (s : stack) : res stack :=
  match a with inl p => visit_pat p s | inr k => Ok (k :: s) end.

(** [visit_return_type], c.rs:1191-1199 *)
Definition visit_ret (t : option cty) (s : stack) : res stack :=
  match t with None => Ok ("void" :: s) | Some t => visit_ty t s end.

(** [visit_signature], c.rs:1201-1245 *)
Definition visit_sig (o : copts) (name : string) (params : list (cpat + string)) (ret : option cty)
  (s : stack) : res stack :=
  let? a := tos (name :: s) in
  let? b := each visit_param params (snd a) in
  let? c := pop_after (visit_ret ret (snd b)) in
  Ok ((fst c ++ " " ++ (prefix o ++ fst a) ++ "(" ++ commas_text (fst b) ++ ")")%string :: snd c).

Section Visit.
  Variable o : copts.

  Fixpoint visit_expr (e : cexpr) (s : stack) : res stack :=
    match e with
    | CNum d => Ok (d :: s)
    | CPath p => Ok (path_text p :: s)
    | CUnary op a =>                                          (* c.rs:581-588 *)
        let? x := tos (unop_text op :: s) in
        let? y := pop_after (visit_expr a (snd x)) in
        Ok ((fst x ++ fst y)%string :: snd y)
    | CBinary op a b =>                                       (* c.rs:318-331 *)
        let? x := pop_after (visit_expr a s) in
        let? y := tos (binop_text op :: snd x) in
        let? z := pop_after (visit_expr b (snd y)) in
        Ok ((fst x ++ " " ++ fst y ++ " " ++ fst z)%string :: snd z)
    | CMethodCall r m args =>                                 (* c.rs:478-504 *)
        let? x := pop_after (visit_expr r s) in
        let? y := tos (m :: snd x) in
        let? z := each visit_expr args (snd y) in
        let? t := method_text o (fst y) (fst x :: fst z) in
        Ok (t :: snd z)
    | CParen a =>                                             (* c.rs:506-511 *)
        let? x := pop_after (visit_expr a s) in
        Ok (("(" ++ fst x ++ ")")%string :: snd x)
    | CCall f args =>                                         (* c.rs:357-379 *)
        let? x := pop_after (visit_expr f s) in
        let? y := each visit_expr args (snd x) in
        Ok (call_text o (fst x) (commas_text (fst y)) :: snd y)
    | CCast a t =>                                            (* c.rs:381-391 *)
        let? x := pop_after (visit_expr a s) in
        let? y := pop_after (visit_ty t (snd x)) in
        Ok (("(" ++ fst y ++ ")" ++ fst x)%string :: snd y)
    | CIf c t e =>                                            (* c.rs:423-437 *)
        let? x := pop_after (visit_expr c s) in
        let? y := pop_after (let? b := each visit_stmt t (snd x) in Ok (block_text (fst b) :: snd b)) in
        match e with
        | Some e =>
            let? z := pop_after (visit_expr e (snd y)) in
            Ok (("(" ++ fst x ++ ") ? (" ++ fst y ++ ") : (" ++ fst z ++ ")")%string :: snd z)
        | None => Ok ("<<if requires an else>>" :: snd y)
        end
    | CBlock b =>                                             (* c.rs:333-342 *)
        let? x := pop_after (let? b := each visit_stmt b s in Ok (block_text (fst b) :: snd b)) in
        Ok (("(" ++ fst x ++ ")")%string :: snd x)
    | CArray es =>                                            (* c.rs:270-281 *)
        let? x := each visit_expr es s in
        Ok (commas_text (fst x) :: snd x)
    | CAssign a b =>                                          (* c.rs:283-291 *)
        let? x := pop_after (visit_expr a s) in
        let? y := pop_after (visit_expr b (snd x)) in
        Ok ((fst x ++ " = " ++ fst y)%string :: snd y)
    | CAssignOp op a b =>                                     (* c.rs:293-304; the first push is never popped *)
        let? x := pop_after (visit_expr a ("<<expr_assign_op>>" :: s)) in
        let? y := tos (assign_op_text op :: snd x) in
        let? z := pop_after (visit_expr b (snd y)) in
        Ok ((fst x ++ " " ++ fst y ++ " " ++ fst z)%string :: snd z)
    | CMarker k => Ok (k :: s)
    | CVerbatim => Ok s
    end
  with visit_stmt (t : cstmt) (s : stack) : res stack :=
    match t with
    | CExprStmt e =>                                          (* c.rs:1253-1262 *)
        let? x := pop_after (visit_expr e s) in
        Ok ((fst x ++ ";")%string :: snd x)
    | CSemi e => visit_expr e s
    | CLocal p i =>                                           (* c.rs:959-971 *)
        let? x := pop_after (visit_pat p s) in
        match i with
        | Some e =>
            let? y := pop_after (visit_expr e (snd x)) in
            Ok ((fst x ++ " = " ++ fst y)%string :: snd y)
        | None => Ok (fst x :: snd x)
        end
    | CItemStmt i => visit_item i s
    end
  with visit_item (i : citem) (s : stack) : res stack :=
    match i with
    | CConst n t e =>                                         (* c.rs:766-783 *)
        let? x := tos (n :: s) in
        let? y := pop_after (visit_ty t (snd x)) in
        let? z := pop_after (visit_expr e (snd y)) in
        Ok (("const " ++ fst y ++ " " ++ fst x ++ " = " ++ fst z ++ ";")%string :: snd z)
    | CType n t =>                                            (* c.rs:866-876 *)
        let? x := tos (n :: s) in
        let? y := pop_after (visit_ty t (snd x)) in
        Ok (("typedef " ++ fst y ++ " " ++ fst x ++ ";")%string :: snd y)
    | CFn n ps r b =>                                         (* c.rs:797-809 *)
        let? x := pop_after (visit_sig o n ps r s) in
        let? y := pop_after (let? b := each visit_stmt b (snd x) in Ok (block_text (fst b) :: snd b)) in
        Ok ((fst x ++ " { return (" ++ fst y ++ "); }")%string :: snd y)
    | CItemMarker k => Ok (k :: s)
    | CItemVerbatim => Ok s
    end.

  (** [visit_file] and [to_c], c.rs:644-659, 1527-1531 *)
  Definition to_c (items : list citem) : res string :=
    let? x := each visit_item items [] in
    let? y := tos (String.concat (nl ++ nl) ("#include <math.h>" :: fst x) :: snd x) in
    Ok (fst y).
End Visit.

(** ** The items of Item.v as trees of [CVisitor]

    Literals other than numbers and the constructs [EField], [EOther] print as
    markers (c.rs:402-405 and the other "<<...>>" methods), and so do tuples and
    tuple types, which Item.v writes as calls of "(,)" and as text.  A [const]
    inside of a function body is a local in Item.v and prints as one here, where
    the real tree has an item statement ("const fty N = e;" instead of
    "fty N = e"). *)
Definition is_tuple (f : expr) : bool := match f with EPath [n] => String.eqb n "(,)" | _ => false end.
Definition cof_ty (t : string) : cty :=
  match t with String "("%char _ => CTyMarker "<<type_tuple>>" | _ => CTyPath [t] end.
Fixpoint cof (e : expr) : cexpr :=
  match e with
  | ELit (LInt d _) | ELit (LFloat d _) => CNum d
  | ELit (LBool _) => CMarker "<<lit_bool>>"
  | ELit (LOther _) => CMarker "<<lit_str>>"
  | EPath p => CPath p
  | EUnary op a => CUnary op (cof a)
  | EBinary op a b => CBinary op (cof a) (cof b)
  | EMethodCall r m _ args => CMethodCall (cof r) m (map cof args)
  | EParen a => CParen (cof a)
  | EField _ _ => CMarker "<<expr_field>>"
  | ECall f args => if is_tuple f then CMarker "<<expr_tuple>>" else CCall (cof f) (map cof args)
  | ECast a t => CCast (cof a) (CTyPath [t])
  | EIf c t e => CIf (cof c) (map cof_stmt t) (option_map cof e)
  | EBlock b => CBlock (map cof_stmt b)
  | EOther k => CMarker ("<<expr_" ++ k ++ ">>")
  end
with cof_stmt (t : stmt) : cstmt :=
  match t with
  | SLocal n t i =>
      CLocal (match t with Some t => CPatTyped (CPatIdent n) (CTyPath [t]) | None => CPatIdent n end)
        (option_map cof i)
  | SExpr e => CExprStmt (cof e)
  | SSemi e => CSemi (cof e)
  end.

Definition cof_item (i : item) : citem :=
  match i with
  | IConst n t e => CConst n (CTyPath [t]) (cof e)
  | IType n t => CType n (CTyPath [t])
  | IFn n ps r b =>
      CFn n (map (fun p => inl (CPatTyped (CPatIdent (fst p)) (cof_ty (snd p)))) ps)
        (Some (cof_ty r)) (map cof_stmt b)
  | IOther k => CItemMarker ("<<item_" ++ k ++ ">>")
  end.
