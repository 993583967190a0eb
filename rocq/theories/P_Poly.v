(** Properties C22, C23, C43-C45: interpolation and approx. Theorems only.
    [pval ts x] is the sum of ts_i x^i; [vsum] the same in the ring of an
    interpretation, over the wanted indices; [node] a Chebyshev node;
    [value_at] the evaluator's value of an expression at a point. *)
From Coq Require Import ZArith QArith Qabs Reals String List Bool Lra Lia.
From Verif Require Import Res Dec DecFacts DecStr RFacts Syntax Trans BdMath Eval PiFacts Poly PolyFacts MulAddFacts PolyErr ApproxFacts.
Import ListNotations.
Open Scope string_scope.
Open Scope list_scope.

(** ** C22 interpolation in exact arithmetic *)

Theorem C22_interpolates :
  forall xs ys : list Q, ys <> [] -> length xs = length ys -> pairwise_distinct xs ->
  exists ts, from_points q_arith xs ys = Ok ts /\ length ts = length ys /\
    forall i x y, nth_error xs i = Some x -> nth_error ys i = Some y -> (pval ts x == y)%Q.
Proof. exact from_points_interpolates. Qed.
Print Assumptions C22_interpolates.

Theorem C22_unique :
  forall xs ys p q : list Q,
  length xs = length ys -> pairwise_distinct xs -> length p = length ys -> length q = length ys ->
  (forall i x y, nth_error xs i = Some x -> nth_error ys i = Some y -> (pval p x == y)%Q) ->
  (forall i x y, nth_error xs i = Some x -> nth_error ys i = Some y -> (pval q x == y)%Q) ->
  Forall2 Qeq p q.
Proof. exact interpolation_unique. Qed.
Print Assumptions C22_unique.

Theorem C22_eval :
  forall (ts : list Q) (x : Q), ts <> [] -> exists y : Q, poly_eval q_arith ts x = Ok y /\ (y == pval ts x)%Q.
Proof. exact poly_eval_val. Qed.
Print Assumptions C22_eval.

(** 1 + x^2 through 0, 1, 2 *)
Example C22_case : exists a b c : Q,
  from_points q_arith [0; 1; 2]%Q [1; 2; 5]%Q = Ok [a; b; c] /\ (a == 1 /\ b == 0 /\ c == 1)%Q.
Proof. do 3 eexists. split; [vm_compute; reflexivity|]. vm_compute. auto. Qed.
Example C22_case_hyp : pairwise_distinct [0; 1; 2]%Q.
Proof.
  intros [|[|[|[|i]]]] [|[|[|[|j]]]] a b A B N E; cbn in A, B; try discriminate; try congruence;
    inversion A; inversion B; subst; try discriminate E; try congruence.
Qed.

(** ** C23 the emitted expression *)

Theorem C23_mul_add_value :
  forall (terms : list bd) (x : list string) (p : parity), terms <> [] -> right_parity p (length terms) = true ->
  exists e, mul_add_polynomial terms x p = Ok e /\
  forall V (I : interp V) zero one num, number_interp I zero one num ->
    den I e = vsum I zero one num (wanted p) terms (i_path I x) 0.
Proof. exact mul_add_value. Qed.
Print Assumptions C23_mul_add_value.

Theorem C23_refused :
  forall terms x p, mul_add_polynomial terms x p = Err WrongNumberOfTerms <->
    terms <> [] /\ right_parity p (length terms) = false.
Proof. exact mul_add_refused. Qed.
Print Assumptions C23_refused.

Example C23_case : mul_add_polynomial [bigd 1; BD (-25) 1; bigd 3] ["x"] PEven =
  Ok (EMethodCall (EParen (ELit (LInt "3" ""))) "mul_add" None
       [EBinary BMul (EPath ["x"]) (EPath ["x"]); ELit (LInt "1" "")]).
Proof. vm_compute. reflexivity. Qed.
Example C23_case_refused : mul_add_polynomial [bigd 1; bigd 2] ["x"] PEven = Err WrongNumberOfTerms.
Proof. reflexivity. Qed.

(** ** C43 rounding in the interpolation *)

Theorem C43_rounding_error :
  forall (k : nat) (h M Y0 : Q), (0 < k)%nat -> (0 < h)%Q ->
  exists C : Q, forall (nd : Z) (xs ys : list bd),
    (0 <= nd <= 99)%Z -> length xs = k -> length ys = k ->
    (forall x, In x xs -> (Qabs (dval x) <= M)%Q) -> (forall y, In y ys -> (Qabs (dval y) <= Y0)%Q) ->
    (forall i j a b, nth_error xs i = Some a -> nth_error xs j = Some b -> i <> j -> (h <= Qabs (dval a - dval b))%Q) ->
    exists ts, from_points (bd_arith nd) xs ys = Ok ts /\ length ts = k /\
      forall i x y, nth_error xs i = Some x -> nth_error ys i = Some y ->
        (Qabs (pval (map dval ts) (dval x) - dval y) <= C * p10 (- nd))%Q.
Proof. exact interpolation_error. Qed.
Print Assumptions C43_rounding_error.

(** The points (0, 0), (3, 1) at five digits: slope 0.33333, error 10^-5 at 3. *)
Example C43_case : exists ts, from_points (bd_arith 5) [bigd 0; bigd 3] [bigd 0; bigd 1] = Ok ts /\
  (pval (map dval ts) 3 == 99999 # 100000)%Q.
Proof. exists [BD 0 5; BD 33333 5]. split; vm_compute; reflexivity. Qed.

(** ** C44 the sample points *)

Theorem C44_chebyshev_samples :
  forall o fuel e n xmin xmax x p nd r, (2 <= n)%nat -> (2 <= nd <= 97)%Z ->
  approx o fuel e n xmin xmax x p nd = Ok r ->
  exists xs ys ts, length xs = n /\ length ys = n /\
    (forall i, (i < n)%nat -> exists xv y, nth_error xs i = Some xv /\ nth_error ys i = Some y /\
       (Rabs (rval xv - node (rval xmin) (rval xmax) n i) <= Rabs (rval xmax - rval xmin) * r10 (- nd))%R /\
       value_at o fuel nd e x xv y) /\
    from_points (bd_arith nd) xs ys = Ok ts /\ mul_add_polynomial ts x p = Ok r.
Proof. exact approx_nodes. Qed.
Print Assumptions C44_chebyshev_samples.

Theorem C44_needs_two_terms :
  forall o fuel e n xmin xmax x p nd, (n <= 1)%nat -> (nd < 100)%Z -> approx o fuel e n xmin xmax x p nd = Panic.
Proof. exact approx_few. Qed.
Print Assumptions C44_needs_two_terms.

(** ** C45 the result at the sample points *)

Theorem C45_approx_error :
  forall (n : nat) (W M Y0 : Q), (2 <= n)%nat -> (0 < W)%Q ->
  exists C : R, forall o fuel e xmin xmax x nd r,
    (2 <= nd <= 97)%Z -> (8 * Z.of_nat (n - 1) ^ 2 <= 10 ^ nd)%Z ->
    (W <= Qabs (dval xmax - dval xmin))%Q -> (Qabs (dval xmin) <= M)%Q -> (Qabs (dval xmax) <= M)%Q ->
    approx o fuel e n xmin xmax x PNeither nd = Ok r ->
    exists xs ys, length xs = n /\ length ys = n /\
      (forall i, (i < n)%nat -> exists xv y, nth_error xs i = Some xv /\ nth_error ys i = Some y /\
         (Rabs (rval xv - node (rval xmin) (rval xmax) n i) <= Rabs (rval xmax - rval xmin) * r10 (- nd))%R /\
         value_at o fuel nd e x xv y) /\
      ((forall y, In y ys -> (Qabs (dval y) <= Y0)%Q) ->
       forall I i xv y, real_interp I -> nth_error xs i = Some xv -> nth_error ys i = Some y -> i_path I x = rval xv ->
         (Rabs (den I r - rval y) <= C * r10 (- nd))%R).
Proof. exact approx_close. Qed.
Print Assumptions C45_approx_error.

(** x * x on [0, 1] by three terms at three digits; it meets every hypothesis of C44 and C45. *)
Example C45_case :
  approx no_oracles 10 (EBinary BMul (EPath ["x"]) (EPath ["x"])) 3 (bigd 0) (bigd 1) ["x"] PNeither 3 =
  Ok (EMethodCall (EMethodCall (EParen (ELit (LFloat "1.000" ""))) "mul_add" None
        [EPath ["x"]; ELit (LFloat "0.000" "")]) "mul_add" None [EPath ["x"]; ELit (LFloat "0.000" "")]) /\
  (8 * Z.of_nat (3 - 1) ^ 2 <= 10 ^ 3)%Z.
Proof. split; [vm_compute; reflexivity|lia]. Qed.
