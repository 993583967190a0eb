(** The tests libmgen writes into the generated library.

    libmgen/src/auxfuncs.rs:444-470 [test_function] and
    libmgen/src/test.rs:88-130 [gen_histogram].  The printing is left out; a
    panic inside the function under test fails the test and is not modelled.
    Floats are those of GenSem. *)
From Coq Require Import List Bool ZArith.
From Flocq Require Import IEEE754.BinarySingleNaN IEEE754.Binary.
From Verif Require Import GenSem.
Import ListNotations.
Open Scope Z_scope.

Section Harness.
  Variable bits : Z.
  Notation flt := (flt bits).
  Variable nan_of : list flt -> { x : flt | Binary.is_nan (prec bits) (emax bits) x = true }.

  (** [a > b] and [a <= b] on floats *)
  Definition above (a b : flt) : bool := match fcmp bits a b with Some Gt => true | _ => false end.
  Definition at_most (a b : flt) : bool := match fcmp bits a b with Some Lt | Some Eq => true | _ => false end.
  Definition zero : flt := Binary.B754_zero _ _ false.

  (** auxfuncs.rs:451-452 *)
  Definition sample_error (f : flt -> flt) (row : flt * flt * flt) : flt :=
    let '(x, yref, yerr) := row in fabs bits (fsub bits nan_of (fsub bits nan_of (f x) yref) yerr).
  (** auxfuncs.rs:446-459 *)
  Fixpoint max_error (f : flt -> flt) (rows : list (flt * flt * flt)) (m : flt) : flt :=
    match rows with
    | [] => m
    | r :: t => let e := sample_error f r in max_error f t (if above e m then e else m)
    end.
  (** auxfuncs.rs:468-469 *)
  Definition test_passes (f : flt -> flt) (rows : list (flt * flt * flt)) (limit : flt) : bool :=
    let m := max_error f rows zero in negb (Binary.is_nan _ _ m) && at_most m limit.
End Harness.

Section Histogram.
  Variable nan_of : list (flt 64) -> { x : flt 64 | Binary.is_nan (prec 64) (emax 64) x = true }.
  Notation "a -! b" := (fsub 64 nan_of a b) (at level 50, left associativity).
  Notation "a +! b" := (fadd 64 nan_of a b) (at level 50, left associativity).
  Notation "a *! b" := (fmul 64 nan_of a b) (at level 40, left associativity).
  Notation "a /! b" := (fdiv 64 nan_of a b) (at level 40, left associativity).
  (** test.rs:94-95 *)
  Definition nbuckets : Z := 32.
  Definition niter : Z := 1000000.
  (** test.rs:119-123: the error in bucket [i], which holds [h] of the samples *)
  Definition bucket_error (pdf : flt 64 -> flt 64) (tmin tmax : flt 64) (i h : Z) : flt 64 :=
    let dx := (tmax -! tmin) /! of_int 64 nbuckets in
    let half := of_int 64 1 /! of_int 64 2 in
    let x := ((of_int 64 i +! half) /! of_int 64 nbuckets) *! (tmax -! tmin) +! tmin in
    let pdf_est := of_int 64 h /! (of_int 64 niter *! dx) in
    fabs 64 (pdf_est -! pdf x).
  (** test.rs:118-125: each bucket overwrites the error of the one before *)
  Fixpoint hist_error (pdf : flt 64 -> flt 64) (tmin tmax : flt 64) (i : Z) (h : list Z) (m : flt 64) : flt 64 :=
    match h with
    | [] => m
    | c :: t => hist_error pdf tmin tmax (i + 1) t (bucket_error pdf tmin tmax i c)
    end.
  (** test.rs:127; 0.001 as an f64 *)
  Definition milli : flt 64 := of_bits 64 4562254508917369340.
  Definition histogram_passes (pdf : flt 64 -> flt 64) (tmin tmax : flt 64) (h : list Z) : bool :=
    match fcmp 64 (hist_error pdf tmin tmax 0 h (zero 64)) milli with Some Lt => true | _ => false end.
End Histogram.
