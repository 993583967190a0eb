(** doctor-syn/src/polynomial.rs and doctor-syn/src/transformation/approx.rs.

    The interpolation code is written over a record of operations: [bd_arith nd]
    is what the Rust code runs on, [q_arith] is the same code in exact
    arithmetic.  Vectors and slices are lists; indexing out of range is a
    panic, as is the subtraction [k - 1] at k = 0. *)
From Coq Require Import ZArith QArith List String Bool Arith.
From Verif Require Import Res Dec DecStr Syntax Trans Parse BdMath Eval.
Import ListNotations.
Open Scope list_scope.

Record arith : Type := Arith {
  num : Type;
  n_zero : num;
  n_one : num;
  n_add : num -> num -> num;
  n_sub : num -> num -> num;
  n_mul : num -> num -> num;
  n_neg : num -> num;
  n_div : num -> num -> res num;      (* panics on zero divisors *)
  n_round : num -> num                (* round(_, num_digits) *)
}.
Definition bd_arith (nd : Z) : arith :=
  Arith bd dzero done dadd dsub dmul dneg ddiv (fun x => round x nd).
Definition q_arith : arith :=
  Arith Q 0%Q 1%Q Qplus Qminus Qmult Qopp
        (fun x y => if Qeq_bool y 0 then Panic else Ok (x / y)%Q) (fun x => x).

(** Indexing [v[i]] and assignment [v[i] = a]. *)
Definition get {A} (v : list A) (i : nat) : res A :=
  match nth_error v i with Some a => Ok a | None => Panic end.
Fixpoint set {A} (v : list A) (i : nat) (a : A) : list A :=
  match v, i with
  | [], _ => []
  | _ :: r, O => a :: r
  | x :: r, S i' => x :: set r i' a
  end.

(** [for i in is { state = f(i, state) }] *)
Fixpoint for_each {S} (is : list nat) (f : nat -> S -> res S) (s : S) : res S :=
  match is with
  | [] => Ok s
  | i :: r => let? s' := f i s in for_each r f s'
  end.
(** [a..b] *)
Definition range (a b : nat) : list nat := seq a (b - a).

Section Interpolation.
  Variable A : arith.

  (** polynomial.rs:11-18 *)
  Definition dd_step (x : list (num A)) (i j : nat) (y : list (num A)) : res (list (num A)) :=
    let? y1 := get y (j + 1) in
    let? y0 := get y j in
    let? x1 := get x (j + 1) in
    let? x0 := get x (j - i) in
    let? q := n_div A (n_sub A y1 y0) (n_sub A x1 x0) in
    Ok (set y (j + 1) (n_round A q)).
  Definition divided_differences (x y : list (num A)) : res (list (num A)) :=
    match List.length y with
    | O => Panic
    | S k' => for_each (range 0 k') (fun i => for_each (rev (range i k')) (dd_step x i)) y
    end.

  (** polynomial.rs:37-39: [terms[j] += round(newton[j] * dd[i])] *)
  Definition add_term (newton dd : list (num A)) (i j : nat) (terms : list (num A)) : res (list (num A)) :=
    let? t := get terms j in
    let? n := get newton j in
    let? d := get dd i in
    Ok (set terms j (n_add A t (n_round A (n_mul A n d)))).
  (** polynomial.rs:43-45 *)
  Definition shift_coeff (c : num A) (i : nat) (newton : list (num A)) : res (list (num A)) :=
    let? a := get newton i in
    let? b := get newton (i - 1) in
    Ok (set newton i (n_round A (n_add A (n_mul A a c) b))).
  (** polynomial.rs:36-47, one turn of the outer loop on (newton, terms) *)
  Definition newton_step (x dd : list (num A)) (k i : nat) (s : list (num A) * list (num A)) :
    res (list (num A) * list (num A)) :=
    let '(newton, terms) := s in
    let? terms := for_each (range 0 k) (add_term newton dd i) terms in
    let? xi := get x i in
    let c := n_neg A xi in
    let? newton := for_each (rev (range 1 k)) (shift_coeff c) newton in
    let? n0 := get newton 0 in
    Ok (set newton 0 (n_mul A n0 c), terms).
  (** polynomial.rs:22-49 *)
  Definition from_points (x y : list (num A)) : res (list (num A)) :=
    let k := List.length y in
    let newton := repeat (n_zero A) k in
    let terms := repeat (n_zero A) k in
    if Nat.eqb k 0 then Panic
    else
      let newton := set newton 0 (n_one A) in
      let? dd := divided_differences x y in
      let? s := for_each (range 0 k) (newton_step x dd k) (newton, terms) in
      Ok (snd s).

  (** polynomial.rs:51-58 *)
  Definition poly_eval (terms : list (num A)) (x : num A) : res (num A) :=
    match List.length terms with
    | O => Panic
    | S l' =>
        let? y := get terms l' in
        for_each (rev (range 0 l'))
          (fun i y => let? t := get terms i in Ok (n_add A (n_mul A y x) t)) y
    end.
End Interpolation.

(** ** approx.rs *)
Inductive parity := POdd | PEven | PNeither.

(** approx.rs:10-12 [mkexpr] is [expr_of_bd]. *)

(** [a..b] in steps of two *)
Fixpoint every_second {A} (l : list A) : list A :=
  match l with
  | [] => []
  | [a] => [a]
  | a :: _ :: r => a :: every_second r
  end.

(** [quote!(mul_add(#arg, #ti))] preceded by a dot *)
Definition mul_add_toks (arg : list token) (ti : expr) : list token :=
  TDot :: TIdent "mul_add" :: TLParen :: arg ++ TComma :: toks ti ++ [TRParen].

(** [terms[i]] for the indices of the iterator, as tokens *)
Fixpoint mul_adds (terms : list bd) (arg : list token) (is : list nat) : res (list token) :=
  match is with
  | [] => Ok []
  | i :: r =>
      let? t := get terms i in
      let? e := expr_of_bd t in
      let? ts := mul_adds terms arg r in
      Ok (mul_add_toks arg e ++ ts)
  end.

(** [parse_quote!]: panics when the tokens do not parse *)
Definition parse_quote (ts : list token) : res expr := expect (rust_parse ts).

(** approx.rs:14-69 *)
Definition mul_add_polynomial (terms : list bd) (x : list string) (p : parity) : res expr :=
  match List.length terms with
  | O => Panic
  | S k' =>
      let? t := get terms k' in
      let? h := expr_of_bd t in
      let head := TLParen :: toks h ++ [TRParen] in
      let sq := [TPath x; TBin BMul; TPath x] in
      match p with
      | POdd =>
          if Nat.odd (S k') then Err WrongNumberOfTerms
          else let? ms := mul_adds terms sq (rev (every_second (range 1 k'))) in
               parse_quote (head ++ ms ++ [TBin BMul; TPath x])
      | PEven =>
          if Nat.even (S k') then Err WrongNumberOfTerms
          else let? ms := mul_adds terms sq (rev (every_second (range 0 k'))) in
               parse_quote (head ++ ms)
      | PNeither =>
          let? ms := mul_adds terms [TPath x] (rev (range 0 k')) in
          parse_quote (head ++ ms)
      end
  end.

(** approx.rs:88-104: the sample points.  [xmin], [xmax] are the arguments
    after [bigdf]; [usize] subtraction at 0 panics. *)
Fixpoint samples (o : oracles) (fuel : nat) (e : expr) (x : list string) (nd : Z)
  (a b c : bd) (is : list nat) : res (list bd * list bd) :=
  match is with
  | [] => Ok ([], [])
  | i :: r =>
      let? cs := bcos (dmul (bigd (Z.of_nat i)) b) nd in
      let xv := dsub a (dmul c cs) in
      let? xe := expr_of_bd xv in
      let? s := subst [(x, xe)] e in
      let? v := eval o fuel nd s in
      let? y := bd_of_expr v in
      let? rest := samples o fuel e x nd a b c r in
      Ok (xv :: fst rest, y :: snd rest)
  end.
(** approx.rs:71-109 *)
Definition approx (o : oracles) (fuel : nat) (e : expr) (num_terms : nat) (xmin xmax : bd)
  (x : list string) (p : parity) (nd : Z) : res expr :=
  match num_terms with
  | O => Panic
  | S n' =>
      let a := dmul (dadd xmax xmin) dhalf in
      let? pi := bpi o nd in
      let? b := ddiv pi (bigd (Z.of_nat n')) in
      let c := dmul (dsub xmax xmin) dhalf in
      let? s := samples o fuel e x nd a b c (range 0 num_terms) in
      let? terms := from_points (bd_arith nd) (fst s) (snd s) in
      mul_add_polynomial terms x p
  end.
