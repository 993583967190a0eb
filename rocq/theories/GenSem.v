(** What the generated items mean when compiled as Rust: IEEE floats of the
    library's width (Flocq), fixed-width integers, let, if and calls.

    Not modelled: static typing (see GenType.v); floats of another width than
    the library's.  The NaN an operation returns ([nan_of]) and the methods
    of std that call the platform's libm ([std]) are parameters, as is
    whether integer overflow panics ([checked], cargo's overflow-checks). *)
From Coq Require Import List String Bool ZArith Ascii.
From Flocq Require Import Core.Zaux Core.Raux IEEE754.BinarySingleNaN IEEE754.Binary IEEE754.Bits.
From Verif Require Import Res Dec DecStr Syntax Item.
Import ListNotations.
Open Scope string_scope.
Open Scope list_scope.
Open Scope Z_scope.

(** ** Formats: f32 has 23 mantissa and 8 exponent bits, f64 52 and 11 *)
Definition mw (bits : Z) : Z := if bits =? 32 then 23 else 52.
Definition ew (bits : Z) : Z := if bits =? 32 then 8 else 11.
Definition prec (bits : Z) : Z := mw bits + 1.
Definition emax (bits : Z) : Z := 2 ^ (ew bits - 1).
Lemma mw_pos bits : 0 < mw bits.
Proof. unfold mw. destruct (bits =? 32); reflexivity. Qed.
Lemma ew_pos bits : 0 < ew bits.
Proof. unfold ew. destruct (bits =? 32); reflexivity. Qed.
Lemma prec_emax bits : mw bits + 1 < 2 ^ (ew bits - 1).
Proof. unfold mw, ew. destruct (bits =? 32); reflexivity. Qed.
#[global] Instance prec_gt bits : FLX.Prec_gt_0 (prec bits).
Proof. unfold FLX.Prec_gt_0, prec, mw. destruct (bits =? 32); reflexivity. Qed.
#[global] Instance prec_lt bits : Prec_lt_emax (prec bits) (emax bits).
Proof. exact (prec_emax bits). Qed.
Definition flt (bits : Z) : Type := binary_float (prec bits) (emax bits).

(** [from_bits], [to_bits] *)
Definition of_bits (bits n : Z) : flt bits := binary_float_of_bits (mw bits) (ew bits) (mw_pos bits) (ew_pos bits) (prec_emax bits) n.
Definition to_bits {bits} (x : flt bits) : Z := bits_of_binary_float (mw bits) (ew bits) x.

(** ** Types and values *)
Inductive ity : Type := I32 | I64 | U32 | U64 | USize.
Definition isize (t : ity) : Z := match t with I32 | U32 => 32 | _ => 64 end.
Definition signed (t : ity) : bool := match t with I32 | I64 => true | _ => false end.
Definition ity_eqb (a b : ity) : bool :=
  match a, b with I32, I32 | I64, I64 | U32, U32 | U64, U64 | USize, USize => true | _, _ => false end.
Definition imin (t : ity) : Z := if signed t then - 2 ^ (isize t - 1) else 0.
Definition imax (t : ity) : Z := if signed t then 2 ^ (isize t - 1) - 1 else 2 ^ isize t - 1.
(** two's complement *)
Definition wrap (t : ity) (z : Z) : Z :=
  let m := z mod 2 ^ isize t in if signed t && (2 ^ (isize t - 1) <=? m) then m - 2 ^ isize t else m.
Definition in_range (t : ity) (z : Z) : bool := (imin t <=? z) && (z <=? imax t).

Inductive ty : Type := TFlt (width : Z) | TInt (t : ity) | TBool.

(** An unsuffixed literal takes the type of the other operand, of the let or
    of the parameter. *)
Inductive val (bits : Z) : Type :=
| VFlt (x : flt bits)
| VInt (t : ity) (z : Z)
| VBool (b : bool)
| VLitI (z : Z)
| VLitF (x : flt bits)
| VPair (a b : val bits).
Arguments VFlt {bits}. Arguments VInt {bits}. Arguments VBool {bits}. Arguments VLitI {bits}. Arguments VLitF {bits}.
Arguments VPair {bits}.

Definition prim (n : string) : option ty :=
  if String.eqb n "f32" then Some (TFlt 32) else if String.eqb n "f64" then Some (TFlt 64)
  else if String.eqb n "i32" then Some (TInt I32) else if String.eqb n "i64" then Some (TInt I64)
  else if String.eqb n "u32" then Some (TInt U32) else if String.eqb n "u64" then Some (TInt U64)
  else if String.eqb n "usize" then Some (TInt USize) else if String.eqb n "bool" then Some TBool else None.
Definition find_item (lib : list item) (n : string) : option item :=
  find (fun i => match item_name i with Some m => String.eqb m n | None => false end) lib.
(** type aliases are not chained in the generated code *)
Definition resolve (lib : list item) (n : string) : option ty :=
  match prim n with
  | Some t => Some t
  | None => match find_item lib n with Some (IType _ t) => prim t | _ => None end
  end.

(** The program is not one rustc accepts. *)
Definition stuck {A} : res A := Err UnsupportedExpr.

Section Ops.
  Variable bits : Z.
  Notation flt := (flt bits).
  Notation val := (val bits).
  Variable nan_of : list flt -> { x : flt | Binary.is_nan (prec bits) (emax bits) x = true }.
  Variable std : string -> list flt -> option flt.
  Variable checked : bool.

  (** ** Float operations: round to nearest even; sign operations act on the
      sign bit of NaNs too *)
  Definition fadd (x y : flt) : flt := Bplus _ _ (prec_gt bits) (prec_lt bits) (fun a b => nan_of [a; b]) mode_NE x y.
  Definition fsub (x y : flt) : flt := Bminus _ _ (prec_gt bits) (prec_lt bits) (fun a b => nan_of [a; b]) mode_NE x y.
  Definition fmul (x y : flt) : flt := Bmult _ _ (prec_gt bits) (prec_lt bits) (fun a b => nan_of [a; b]) mode_NE x y.
  Definition fdiv (x y : flt) : flt := Bdiv _ _ (prec_gt bits) (prec_lt bits) (fun a b => nan_of [a; b]) mode_NE x y.
  Definition ffma (x y z : flt) : flt := Bfma _ _ (prec_gt bits) (prec_lt bits) (fun a b c => nan_of [a; b; c]) mode_NE x y z.
  Definition fsqrt (x : flt) : flt := Bsqrt _ _ (prec_gt bits) (prec_lt bits) (fun a => nan_of [a]) mode_NE x.
  Definition set_sign (s : bool) (x : flt) : flt :=
    match x with
    | Binary.B754_zero _ _ _ => Binary.B754_zero _ _ s
    | Binary.B754_infinity _ _ _ => Binary.B754_infinity _ _ s
    | Binary.B754_nan _ _ _ pl H => Binary.B754_nan _ _ s pl H
    | Binary.B754_finite _ _ _ m e H => Binary.B754_finite _ _ s m e H
    end.
  Definition fsign (x : flt) : bool := Binary.Bsign _ _ x.
  Definition fneg (x : flt) : flt := set_sign (negb (fsign x)) x.
  Definition fabs (x : flt) : flt := set_sign false x.
  Definition fcopysign (x y : flt) : flt := set_sign (fsign y) x.
  Definition fcmp (x y : flt) : option comparison := Binary.Bcompare _ _ x y.
  Definition fone : flt := Binary.binary_normalize _ _ (prec_gt bits) (prec_lt bits) mode_NE 1 0 false.
  (** int to float; float to int saturates, NaN gives 0 *)
  Definition of_int (z : Z) : flt := Binary.binary_normalize _ _ (prec_gt bits) (prec_lt bits) mode_NE z 0 false.
  Definition to_int (t : ity) (x : flt) : Z :=
    match x with
    | Binary.B754_infinity _ _ s => if s then imin t else imax t
    | _ => Z.max (imin t) (Z.min (imax t) (Binary.Btrunc _ _ x))
    end.
  (** decimal literals, rounded to nearest even: [mant * 10^-scale], by a
      quotient with 128 bits beyond the width and a sticky bit *)
  Definition of_decimal (d : bd) : flt :=
    if scale d <=? 0 then of_int (mant d * 10 ^ (- scale d))
    else
      let b := 10 ^ scale d in
      let k := Z.log2 b + 128 in
      let q := mant d * 2 ^ k / b in
      let r := mant d * 2 ^ k mod b in
      Binary.binary_normalize _ _ (prec_gt bits) (prec_lt bits) mode_NE (2 * q + (if r =? 0 then 0 else 1)) (- k - 1) false.

  (** ** Operators *)
  Definition relate (op : binop) (c : option comparison) : res bool :=
    match op, c with
    | BLt, Some Lt => Ok true | BLt, _ => Ok false
    | BGt, Some Gt => Ok true | BGt, _ => Ok false
    | BLe, Some (Lt | Eq) => Ok true | BLe, _ => Ok false
    | BGe, Some (Gt | Eq) => Ok true | BGe, _ => Ok false
    | BEq, Some Eq => Ok true | BEq, _ => Ok false
    | BNe, Some Eq => Ok false | BNe, _ => Ok true
    | _, _ => stuck
    end.
  Definition is_rel (op : binop) : bool := match op with BLt | BGt | BLe | BGe | BEq | BNe => true | _ => false end.
  Definition flt_op (op : binop) (x y : flt) : res val :=
    match op with
    | BAdd => Ok (VFlt (fadd x y)) | BSub => Ok (VFlt (fsub x y)) | BMul => Ok (VFlt (fmul x y)) | BDiv => Ok (VFlt (fdiv x y))
    | _ => if is_rel op then let? b := relate op (fcmp x y) in Ok (VBool b) else stuck
    end.
  Definition arith (t : ity) (z : Z) : res val :=
    if in_range t z then Ok (VInt t z) else if checked then Panic else Ok (VInt t (wrap t z)).
  (** [/] and [%] do not occur on integers *)
  Definition int_op (op : binop) (t : ity) (x y : Z) : res val :=
    match op with
    | BAdd => arith t (x + y) | BSub => arith t (x - y) | BMul => arith t (x * y)
    | BBitAnd => Ok (VInt t (Z.land x y)) | BBitOr => Ok (VInt t (Z.lor x y)) | BBitXor => Ok (VInt t (Z.lxor x y))
    | _ => if is_rel op then let? b := relate op (Some (x ?= y)) in Ok (VBool b) else stuck
    end.
  Definition shift_op (op : binop) (t : ity) (x k : Z) : res val :=
    if (0 <=? k) && (k <? isize t) then
      match op with
      | BShl => Ok (VInt t (wrap t (Z.shiftl x k)))
      | BShr => Ok (VInt t (Z.shiftr x k))
      | _ => stuck
      end
    else if checked then Panic else
      match op with
      | BShl => Ok (VInt t (wrap t (Z.shiftl x (k mod isize t))))
      | BShr => Ok (VInt t (Z.shiftr x (k mod isize t)))
      | _ => stuck
      end.
  Definition bin_op (op : binop) (a b : val) : res val :=
    match op, a, b with
    | (BShl | BShr), VInt t x, (VInt _ k | VLitI k) => shift_op op t x k
    | (BShl | BShr), _, _ => stuck
    | _, VFlt x, (VFlt y | VLitF y) | _, VLitF x, VFlt y => flt_op op x y
    | _, VLitF x, VLitF y => let? v := flt_op op x y in match v with VFlt z => Ok (VLitF z) | _ => Ok v end
    | _, VInt t x, VInt u y => if ity_eqb t u then int_op op t x y else stuck
    | _, VInt t x, VLitI y => if in_range t y then int_op op t x y else stuck
    | _, VLitI x, VInt t y => if in_range t x then int_op op t x y else stuck
    | _, _, _ => stuck
    end.
  Definition un_op (op : unop) (a : val) : res val :=
    match op, a with
    | UNeg, VFlt x => Ok (VFlt (fneg x))
    | UNeg, VLitF x => Ok (VLitF (fneg x))
    | UNeg, VLitI z => Ok (VLitI (- z))
    | UNeg, VInt t z => if signed t then arith t (- z) else stuck
    | UNot, VBool b => Ok (VBool (negb b))
    | _, _ => stuck
    end.
  (** [as] *)
  Definition cast (t : option ty) (a : val) : res val :=
    match t, a with
    | Some (TFlt w), (VFlt x | VLitF x) => if w =? bits then Ok (VFlt x) else stuck
    | Some (TFlt w), (VInt _ z | VLitI z) => if w =? bits then Ok (VFlt (of_int z)) else stuck
    | Some (TInt t), (VFlt x | VLitF x) => Ok (VInt t (to_int t x))
    | Some (TInt t), (VInt _ z | VLitI z) => Ok (VInt t (wrap t z))
    | _, _ => stuck
    end.
  (** the declared type of a let, a parameter or a result *)
  Definition declare (t : option ty) (a : val) : res val :=
    match t, a with
    | Some (TFlt w), (VFlt x | VLitF x) => if w =? bits then Ok (VFlt x) else stuck
    | Some (TInt t), VInt u z => if ity_eqb t u then Ok a else stuck
    | Some (TInt t), VLitI z => if in_range t z then Ok (VInt t z) else stuck
    | Some TBool, VBool b => Ok a
    | _, _ => stuck
    end.
  Definition flt_of (a : val) : option flt := match a with VFlt x | VLitF x => Some x | _ => None end.
  Fixpoint flts_of (l : list val) : option (list flt) :=
    match l with
    | [] => Some []
    | a :: r => match flt_of a, flts_of r with Some x, Some q => Some (x :: q) | _, _ => None end
    end.
  (** an unsuffixed literal as a receiver is ambiguous *)
  Definition method (m : string) (recv : val) (args : list val) : res val :=
    match recv with
    | VFlt x =>
        if String.eqb m "to_bits" then match args with [] => Ok (VInt (if bits =? 32 then U32 else U64) (to_bits x)) | _ => stuck end
        else match flts_of args with
        | Some l =>
            if String.eqb m "abs" then match l with [] => Ok (VFlt (fabs x)) | _ => stuck end
            else if String.eqb m "sqrt" then match l with [] => Ok (VFlt (fsqrt x)) | _ => stuck end
            else if String.eqb m "recip" then match l with [] => Ok (VFlt (fdiv fone x)) | _ => stuck end
            else if String.eqb m "copysign" then match l with [y] => Ok (VFlt (fcopysign x y)) | _ => stuck end
            else if String.eqb m "mul_add" then match l with [y; z] => Ok (VFlt (ffma x y z)) | _ => stuck end
            else match std m (x :: l) with Some y => Ok (VFlt y) | None => stuck end
        | None => stuck
        end
    | VInt t x =>
        if String.eqb m "wrapping_mul" then
          match args with
          | [VInt u y] => if ity_eqb t u then Ok (VInt t (wrap t (x * y))) else stuck
          | [VLitI y] => if in_range t y then Ok (VInt t (wrap t (x * y))) else stuck
          | _ => stuck
          end
        else stuck
    | _ => stuck
    end.

  (** ** Expressions *)
  Definition inf : flt := Binary.B754_infinity _ _ false.
  Definition nan : flt := of_bits bits (2 ^ mw bits * (2 ^ ew bits - 1) + 2 ^ (mw bits - 1)).
  Definition min_positive : flt := of_bits bits (2 ^ mw bits).
  Definition path2 (a b : string) : res val :=
    match prim a with
    | Some (TFlt w) =>
        if w =? bits then
          if String.eqb b "INFINITY" then Ok (VFlt inf) else if String.eqb b "NAN" then Ok (VFlt nan)
          else if String.eqb b "MIN_POSITIVE" then Ok (VFlt min_positive) else stuck
        else stuck
    | _ => stuck
    end.
  Definition literal (l : lit) : res val :=
    match l with
    | LInt d s =>
        match parse_dec (list_ascii_of_string d) with
        | Some n =>
            if negb (scale n =? 0) then stuck
            else if String.eqb s "" then Ok (VLitI (mant n))
            else match prim s with
                 | Some (TInt t) => if in_range t (mant n) then Ok (VInt t (mant n)) else stuck
                 | Some (TFlt w) => if w =? bits then Ok (VFlt (of_int (mant n))) else stuck
                 | _ => stuck
                 end
        | None => stuck
        end
    | LFloat d s =>
        match parse_dec (list_ascii_of_string d) with
        | Some n =>
            if String.eqb s "" then Ok (VLitF (of_decimal n))
            else match prim s with Some (TFlt w) => if w =? bits then Ok (VFlt (of_decimal n)) else stuck | _ => stuck end
        | None => stuck
        end
    | LBool b => Ok (VBool b)
    | LOther _ => stuck
    end.
  Fixpoint lookup (n : string) (env : list (string * val)) : option val :=
    match env with [] => None | (m, v) :: r => if String.eqb m n then Some v else lookup n r end.

  Section Eval.
    Variable lib : list item.
    Variable call : string -> list val -> res val.
    Variable const : string -> res val.
    Fixpoint eval_g (env : list (string * val)) (e : expr) {struct e} : res val :=
      let fix evals (l : list expr) : res (list val) :=
        match l with [] => Ok [] | a :: r => let? v := eval_g env a in let? q := evals r in Ok (v :: q) end in
      let fix block (env : list (string * val)) (l : list stmt) : res val :=
        match l with
        | [] => stuck
        | [SExpr a] => eval_g env a
        | SLocal n t (Some a) :: r =>
            let? v := eval_g env a in
            let? w := match t with Some t => declare (resolve lib t) v | None => Ok v end in
            block ((n, w) :: env) r
        | (SSemi a | SExpr a) :: r => let? v := eval_g env a in block env r
        | SLocal _ _ None :: _ => stuck
        end in
      match e with
      | ELit l => literal l
      | EParen a => eval_g env a
      | EPath [n] => match lookup n env with Some v => Ok v | None => const n end
      | EPath [a; b] => path2 a b
      | EUnary op a => let? v := eval_g env a in un_op op v
      | EBinary op a b => let? v := eval_g env a in let? w := eval_g env b in bin_op op v w
      | ECast a t => let? v := eval_g env a in cast (resolve lib t) v
      | EMethodCall r m None args => let? v := eval_g env r in let? l := evals args in method m v l
      | ECall (EPath [f]) args =>
          let? l := evals args in
          if String.eqb f "(,)" then match l with [a; b] => Ok (VPair a b) | _ => stuck end else call f l
      | ECall (EPath [t; f]) args =>
          let? l := evals args in
          match resolve lib t, l with
          | Some (TFlt w), [VInt u n] =>
              if String.eqb f "from_bits" && (w =? bits) && ity_eqb u (if bits =? 32 then U32 else U64)
              then Ok (VFlt (of_bits bits n)) else stuck
          | _, _ => stuck
          end
      | EIf c t (Some f) =>
          let? v := eval_g env c in
          match v with VBool true => block env t | VBool false => eval_g env f | _ => stuck end
      | EBlock l => block env l
      | _ => stuck
      end.
    (** the locals after some leading statements of a body *)
    Fixpoint locals (env : list (string * val)) (l : list stmt) : res (list (string * val)) :=
      match l with
      | [] => Ok env
      | SLocal n t (Some a) :: r =>
          let? v := eval_g env a in
          let? w := match t with Some t => declare (resolve lib t) v | None => Ok v end in
          locals ((n, w) :: env) r
      | _ => stuck
      end.
    Fixpoint bind_params (ps : list (string * string)) (args : list val) : res (list (string * val)) :=
      match ps, args with
      | [], [] => Ok []
      | (n, t) :: ps, a :: r => let? v := declare (resolve lib t) a in let? q := bind_params ps r in Ok ((n, v) :: q)
      | _, _ => stuck
      end.
  End Eval.

  (** Calls and constants, to nesting depth [d]; the generated code is not
      recursive.  A constant's declared type is not looked at here. *)
  Fixpoint const_at (lib : list item) (d : nat) (n : string) : res val :=
    match d with
    | O => Err OutOfFuel
    | S d => match find_item lib n with
             | Some (IConst _ _ e) =>
                 let? v := eval_g lib (fun _ _ => stuck) (const_at lib d) [] e in
                 match v with VLitF x => Ok (VFlt x) | _ => Ok v end
             | _ => stuck
             end
    end.
  Definition const_depth : nat := 4.
  Definition const_of (lib : list item) : string -> res val := const_at lib const_depth.
  Fixpoint run (lib : list item) (d : nat) (f : string) (args : list val) : res val :=
    match d with
    | O => Err OutOfFuel
    | S d => match find_item lib f with
             | Some (IFn _ ps ret body) =>
                 let? env := bind_params lib ps args in
                 let? v := eval_g lib (run lib d) (const_of lib) env (EBlock body) in
                 match v with VPair _ _ => Ok v | _ => declare (resolve lib ret) v end
             | _ => stuck
             end
    end.
End Ops.
