(** The words of the C text of generated items, around the places where an
    approximation or a constant is spliced in. *)
From Coq Require Import List String Ascii Bool Arith ZArith Lia.
From Verif Require Import Res Syntax Item Functions FunctionsFacts GenCode GenCodeFacts CGen CGenFacts CLex CText CNames.
Import ListNotations.
Open Scope string_scope.
Open Scope list_scope.

(** A text in pieces: known text, or the text of what is spliced in as [k]. *)
Inductive pc : Type := PS (s : string) | PH (k : string).

Fixpoint joinp (sep : string) (l : list (list pc)) : list pc :=
  match l with [] => [] | [x] => x | x :: r => x ++ PS sep :: joinp sep r end.
Definition blockp (l : list (list pc)) : list pc := PS ("{" ++ nl)%string :: joinp (";" ++ nl)%string l ++ [PS (nl ++ "}")%string].

Section Pieces.
  Variable o : copts.
  Fixpoint px (e : expr) : list pc :=
    match e with
    | ELit (LInt d _) | ELit (LFloat d _) => [PS d]
    | ELit (LBool _) => [PS "<<lit_bool>>"]
    | ELit (LOther _) => [PS "<<lit_str>>"]
    | EPath p => [PS (path_text p)]
    | EUnary op a => PS (unop_text op) :: px a
    | EBinary op a b => px a ++ PS (" " ++ binop_text op ++ " ")%string :: px b
    | EMethodCall r m _ args =>
        if String.eqb m "round" then PS (m ++ float_suffix o ++ "(")%string :: joinp ", " (px r :: map px args) ++ [PS ")"]
        else if String.eqb m "mul_add" then
          match map px args with
          | b :: c :: _ => PS "((" :: px r ++ PS (nl ++ ") * (")%string :: b ++ PS ") + (" :: c ++ [PS "))"]
          | _ => []
          end
        else PS (m ++ "(")%string :: joinp ", " (px r :: map px args) ++ [PS ")"]
    | EParen a => PS "(" :: px a ++ [PS ")"]
    | EField _ _ => [PS "<<expr_field>>"]
    | ECall f args =>
        if is_tuple f then [PS "<<expr_tuple>>"]
        else match f with
             | EPath p =>
                 if String.eqb (path_text p) "fty_from_bits"
                 then PS "({ union { fty f; uty u; } u; u.u = (" :: joinp ", " (map px args) ++ [PS "); u.f; })"]
                 else PS (prefix o ++ path_text p ++ "(")%string :: joinp ", " (map px args) ++ [PS ")"]
             | _ => []
             end
    | ECast a t => PS ("(" ++ basic_type t ++ ")")%string :: px a
    | EIf c t (Some e) => PS "(" :: px c ++ PS ") ? (" :: blockp (map ps t) ++ PS ") : (" :: px e ++ [PS ")"]
    | EIf _ _ None => [PS "<<if requires an else>>"]
    | EBlock b => PS "(" :: blockp (map ps b) ++ [PS ")"]
    | EOther k => [PH k]
    end
  with ps (t : stmt) : list pc :=
    match t with
    | SLocal n t (Some e) => PS ((match t with Some t => basic_type t ++ " " ++ n | None => n end) ++ " = ")%string :: px e
    | SLocal n t None => [PS (match t with Some t => basic_type t ++ " " ++ n | None => n end)%string]
    | SExpr e => px e ++ [PS ";"]
    | SSemi e => px e
    end.
  Definition pi (i : item) : list pc :=
    match i with
    | IConst n t e => PS ("const " ++ basic_type t ++ " " ++ n ++ " = ")%string :: px e ++ [PS ";"]
    | IType n t => [PS ("typedef " ++ basic_type t ++ " " ++ n ++ ";")%string]
    | IFn n ps' r b =>
        PS (ty_text (cof_ty r) ++ " " ++ (prefix o ++ n) ++ "("
            ++ commas_text (map (fun p => ty_text (cof_ty (snd p)) ++ " " ++ fst p)%string ps') ++ ")" ++ " { return (")%string
        :: blockp (map ps b) ++ [PS "); }"]
    | IOther k => [PS ("<<item_" ++ k ++ ">>")%string]
    end.

  (** called functions are names, and nothing spliced in is dropped *)
  Fixpoint okx (e : expr) : bool :=
    match e with
    | EUnary _ a | EParen a | ECast a _ => okx a
    | EBinary _ a b => okx a && okx b
    | EMethodCall r _ _ args => okx r && forallb okx args
    | ECall f args => match f with EPath _ => true | _ => false end && forallb okx args
    | EIf c t e => okx c && forallb oks t && match e with Some e => okx e | None => true end
    | EBlock b => forallb oks b
    | _ => true
    end
  with oks (t : stmt) : bool :=
    match t with SLocal _ _ (Some e) | SExpr e | SSemi e => okx e | SLocal _ _ None => true end.
  Definition oki (i : item) : bool := match i with IConst _ _ e => okx e | IFn _ _ _ b => forallb oks b | _ => true end.

  Variable sub : string -> expr.
  Definition fillp (p : pc) : string := match p with PS s => s | PH k => expr_text o (cof (sub k)) end.
  Fixpoint flat (l : list pc) : string := match l with [] => "" | p :: r => (fillp p ++ flat r)%string end.
  Lemma flat_app a b : flat (a ++ b) = (flat a ++ flat b)%string.
  Proof. induction a as [|p a IH]; [reflexivity|]. cbn [List.app flat]. rewrite IH. symmetry. apply append_assoc'. Qed.
  Lemma append_nil s : (s ++ "")%string = s.
  Proof. induction s; cbn; congruence. Qed.
  Lemma concat_cons sep x y r : String.concat sep (x :: y :: r) = (x ++ sep ++ String.concat sep (y :: r))%string.
  Proof. reflexivity. Qed.
  Lemma flat_join sep l : flat (joinp sep l) = String.concat sep (map flat l).
  Proof.
    induction l as [|x [|y r] IH]; [reflexivity|reflexivity|].
    change (joinp sep (x :: y :: r)) with (x ++ PS sep :: joinp sep (y :: r)). cbn [map]. rewrite concat_cons, flat_app. cbn [flat fillp].
    rewrite IH. reflexivity.
  Qed.
  Lemma flat_block l : flat (blockp l) = block_text (map flat l).
  Proof.
    unfold blockp, block_text. cbn [flat fillp]. rewrite flat_app, flat_join. cbn [flat fillp]. rewrite append_nil, append_assoc'. reflexivity.
  Qed.

  Definition Pe (e : expr) : Prop := okx e = true -> flat (px e) = expr_text o (cof (plug sub e)).
  Definition Ps (t : stmt) : Prop := oks t = true -> flat (ps t) = stmt_text o (cof_stmt (plug_s sub t)).
  Lemma all_e l : Forall Pe l -> forallb okx l = true -> map flat (map px l) = map (expr_text o) (map cof (map (plug sub) l)).
  Proof.
    induction 1 as [|e r H _ IH]; [reflexivity|]. cbn [forallb map]. intros K. apply andb_prop in K. destruct K as [K1 K2]. rewrite H, IH by assumption. reflexivity.
  Qed.
  Lemma all_s l : Forall Ps l -> forallb oks l = true -> map flat (map ps l) = map (stmt_text o) (map cof_stmt (map (plug_s sub) l)).
  Proof.
    induction 1 as [|e r H _ IH]; [reflexivity|]. cbn [forallb map]. intros K. apply andb_prop in K. destruct K as [K1 K2]. rewrite H, IH by assumption. reflexivity.
  Qed.
  Ltac tidy := repeat first [rewrite append_nil | rewrite append_assoc' | rewrite flat_app | rewrite flat_join | rewrite flat_block | progress cbn [flat fillp]].

  Lemma pieces_e e : Pe e.
  Proof.
    induction e using expr_ind_nested with (Ps := Ps); unfold Pe, Ps in *; cbn [okx oks]; intros K.
    - destruct l; reflexivity || (cbn; apply append_nil).
    - cbn. apply append_nil.
    - cbn [px plug cof expr_text flat fillp]. rewrite IHe by exact K. reflexivity.
    - apply andb_prop in K. destruct K as [K1 K2]. cbn [px plug cof expr_text]. tidy. rewrite IHe1, IHe2 by assumption. reflexivity.
    - apply andb_prop in K. destruct K as [K1 K2]. pose proof (all_e _ H K2) as M. specialize (IHe K1).
      cbn [px plug cof expr_text]. unfold method_text. destruct (String.eqb m "round").
      + cbn [flat fillp]. tidy. cbn [map]. rewrite IHe, M. unfold commas_text. reflexivity.
      + destruct (String.eqb m "mul_add").
        * destruct args as [|a1 [|a2 r]]; [reflexivity|reflexivity|]. cbn [map] in M |- *. injection M as M1 M2 _. tidy. rewrite IHe, M1, M2. reflexivity.
        * cbn [flat fillp]. tidy. cbn [map]. rewrite IHe, M. unfold commas_text. reflexivity.
    - cbn [px plug cof expr_text]. tidy. rewrite IHe by exact K. reflexivity.
    - reflexivity.
    - apply andb_prop in K. destruct K as [K1 K2]. destruct e; try discriminate. pose proof (all_e _ H K2) as M.
      cbn [px plug cof]. destruct (is_tuple (EPath p)); [reflexivity|]. cbn [expr_text cof]. unfold call_text.
      destruct (String.eqb (path_text p) "fty_from_bits"); tidy; rewrite M; unfold commas_text; reflexivity.
    - cbn [px plug cof expr_text]. tidy. rewrite IHe by exact K. reflexivity.
    - apply andb_prop in K. destruct K as [K K3]. apply andb_prop in K. destruct K as [K1 K2]. pose proof (all_s _ H K2) as M.
      cbn [px plug cof option_map]. destruct e0 as [e'|]; [|reflexivity]. cbn [option_map expr_text OptP] in *. tidy. rewrite IHe, M, H0 by assumption. reflexivity.
    - pose proof (all_s _ H K) as M. cbn [px plug cof expr_text]. tidy. rewrite M. reflexivity.
    - cbn [px plug]. tidy. reflexivity.
    - destruct i as [e'|]; cbn [OptP] in *.
      + cbn [ps plug_s cof_stmt option_map stmt_text]. tidy. rewrite H by exact K. destruct t; reflexivity.
      + cbn [ps plug_s cof_stmt option_map stmt_text]. tidy. destruct t; reflexivity.
    - cbn [ps plug_s cof_stmt stmt_text]. tidy. rewrite IHe by exact K. reflexivity.
    - cbn [ps plug_s cof_stmt stmt_text]. apply IHe. exact K.
  Qed.
  Lemma pieces_s t : Ps t.
  Proof.
    destruct t as [n t [e|]|e|e]; unfold Ps; cbn [oks]; intros K; cbn [ps plug_s cof_stmt option_map stmt_text].
    - tidy. rewrite pieces_e by exact K. destruct t; reflexivity.
    - tidy. destruct t; reflexivity.
    - tidy. rewrite pieces_e by exact K. reflexivity.
    - apply pieces_e. exact K.
  Qed.
  Lemma pieces_i i : oki i = true -> flat (pi i) = item_text o (cof_item (plug_i sub i)).
  Proof.
    destruct i as [n t e|n t|n q r b|k]; cbn [oki]; intros K; cbn [pi plug_i cof_item item_text].
    - tidy. rewrite pieces_e by exact K. reflexivity.
    - tidy. reflexivity.
    - assert (M : map flat (map ps b) = map (stmt_text o) (map cof_stmt (map (plug_s sub) b))) by (apply all_s; [apply Forall_forall; intros t _; apply pieces_s|exact K]).
      assert (Q : map param_text (map (fun p => inl (CPatTyped (CPatIdent (fst p)) (cof_ty (snd p)))) q) = map (fun p => ty_text (cof_ty (snd p)) ++ " " ++ fst p)%string q) by (rewrite map_map; reflexivity).
      rewrite Q. tidy. rewrite M. reflexivity.
    - tidy. reflexivity.
  Qed.
End Pieces.

(** ** Words *)
Inductive wd : Type := W (w : string) | H (k : string).

(** neighbouring pieces of known text in one *)
Fixpoint merge (l : list pc) : list pc :=
  match l with
  | PS s :: r => match merge r with PS t :: r' => PS (s ++ t)%string :: r' | r' => PS s :: r' end
  | p :: r => p :: merge r
  | [] => []
  end.
Definition ends_alone (s : string) : bool := match last_char s with Some c => isolating c | None => false end.
Definition begins_alone (s : string) : bool := match s with String c _ => isolating c | EmptyString => false end.
(** what is spliced in stands between characters that end words *)
Fixpoint alone (l : list pc) : bool :=
  match l with
  | PS s :: r => match r with PH _ :: r' => ends_alone s && match r' with PS t :: _ => begins_alone t | _ => false end && alone r' | [] => true | _ => false end
  | [] => true
  | PH _ :: _ => false
  end.
Definition words (l : list pc) : list wd := flat_map (fun p => match p with PS s => map W (c_lex s) | PH k => [H k] end) l.

Lemma last_char_snoc s c : last_char s = Some c -> exists s', s = (s' ++ String c "")%string.
Proof.
  unfold last_char. destruct (rev (list_ascii_of_string s)) as [|d l] eqn:E; [discriminate|]. intros F. injection F as ->.
  exists (string_of_list_ascii (rev l)). rewrite <- (string_of_list_ascii_of_string s) at 1. rewrite <- (rev_involutive (list_ascii_of_string s)), E. cbn [rev].
  induction (rev l) as [|x r IH]; [reflexivity|]. cbn. now rewrite IH.
Qed.
Lemma lex_after s t : ends_alone s = true -> c_lex (s ++ t)%string = c_lex s ++ c_lex t.
Proof.
  unfold ends_alone. destruct (last_char s) as [c|] eqn:E; [|discriminate]. intros I. apply last_char_snoc in E. destruct E as (s' & ->).
  rewrite append_assoc', c_lex_iso by exact I.
  rewrite <- (append_nil (String c "")) at 1. rewrite c_lex_iso by exact I. change (c_lex "") with (@nil string). rewrite app_nil_r, app_assoc. reflexivity.
Qed.
Lemma lex_before s t : begins_alone t = true -> c_lex (s ++ t)%string = c_lex s ++ c_lex t.
Proof.
  destruct t as [|c t]; [discriminate|]. cbn [begins_alone]. intros I. change (String c t) with (String c "" ++ t)%string at 1. rewrite c_lex_iso by exact I.
  assert (E : c_lex ("" ++ String c "" ++ t)%string = c_lex "" ++ iso_tok c ++ c_lex t) by (apply c_lex_iso; exact I). cbn [String.append] in E. rewrite E. reflexivity.
Qed.

Section Words.
  Variables (o : copts) (sub : string -> expr).
  Definition filled (w : wd) : list string := match w with W w => [w] | H k => c_lex (expr_text o (cof (sub k))) end.
  Lemma flat_merge l : flat o sub (merge l) = flat o sub l.
  Proof.
    induction l as [|[s|k] r IH]; [reflexivity| |]; cbn [merge flat fillp].
    - rewrite <- IH. destruct (merge r) as [|[t|k] r']; cbn [flat fillp]; [reflexivity| |reflexivity]. apply append_assoc'.
    - rewrite IH. reflexivity.
  Qed.
  Lemma filled_known l : flat_map filled (map W l) = l.
  Proof. induction l as [|w l IH]; [reflexivity|]. cbn. now rewrite IH. Qed.
  Lemma lex_alone n l : List.length l <= n -> alone l = true -> c_lex (flat o sub l) = flat_map filled (words l).
  Proof.
    revert l. induction n as [|n IH]; intros l L A.
    - destruct l; [reflexivity|cbn in L; lia].
    - destruct l as [|[s|k] r]; [reflexivity| |discriminate]. cbn [alone] in A.
      destruct r as [|[t|k] r]; [|discriminate|].
      + cbn [flat fillp]. rewrite append_nil. unfold words. cbn [flat_map]. rewrite app_nil_r. symmetry. apply filled_known.
      + apply andb_prop in A. destruct A as [A A3]. apply andb_prop in A. destruct A as [A1 A2].
        destruct r as [|[t|k'] r']; try discriminate.
        cbn [flat fillp]. rewrite lex_after by exact A1.
        assert (B : begins_alone (t ++ flat o sub r') = true) by (destruct t; [discriminate|exact A2]).
        rewrite lex_before by exact B. unfold words. cbn [flat_map]. rewrite flat_map_app, filled_known. f_equal. cbn [List.app flat_map filled]. f_equal.
        change (c_lex (flat o sub (PS t :: r')) = flat_map filled (words (PS t :: r'))). apply IH; [cbn in *; lia|exact A3].
  Qed.
  Definition item_words (i : item) : list wd := words (merge (pi o i)).
  Definition item_pieces_ok (i : item) : bool := oki i && alone (merge (pi o i)).
  Lemma lex_item i : item_pieces_ok i = true -> c_lex (item_text o (cof_item (plug_i sub i))) = flat_map filled (item_words i).
  Proof.
    intros K. apply andb_prop in K. destruct K as [K1 K2]. rewrite <- (pieces_i o sub i K1), <- flat_merge.
    apply (lex_alone (List.length (merge (pi o i)))); [lia|exact K2].
  Qed.
End Words.

(** The options libmgen uses for C (main.rs:404-414). *)
Definition c_opts (bits : Z) : copts := if (bits =? 32)%Z then COpts "ds32_" "f" else COpts "ds64_" "".
Lemma templates_ok bits : bits = 32%Z \/ bits = 64%Z ->
  forallb (fun n => forallb (item_pieces_ok (c_opts bits)) (template bits n)) table_names = true.
Proof. intros [-> | ->]; vm_compute; reflexivity. Qed.
