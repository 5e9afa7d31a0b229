(** C38-C41: formulas of Function terms. *)
From Coq Require Import ZArith List Bool String Ascii Reals.
From Flocq Require Import Core BinarySingleNaN.
From Verif Require Import Base Op F64 Text SpecText TextProofs Function SpecFormula FunctionProofs FunctionProofs2 FunctionTable XR FunctionMeaning.
Import ListNotations.
Local Open Scope string_scope.
#[local] Hint Extern 9 (Scalar _) => exact (F64Scalar fp_default) : typeclass_instances.

(** * C38 *)
(** the registered names are the documented ones, with the documented precedence and grouping *)
Theorem C38_documented : forall T (S : Scalar T) t, kind_in documented t = kind_in (sig_of (@default_table T S)) t.
Proof. exact @dt_documented. Qed.
Print Assumptions C38_documented.
(** a text whose tokens are a way to write [e], superfluous parentheses included, is parsed to the tree of [e] *)
Theorem C38_parse : forall T (S : Scalar T) s p e, Renders documented p e (lex_from is_space (one_of special_chars) "" s) ->
  exists n, parse (@default_table T S) s = Ok n /\ tree_of default_table e n.
Proof. exact @dt_parse. Qed.
Print Assumptions C38_parse.
(** the same for any registered names for which precedence parsing is possible *)
Theorem C38_parse_any : forall T (S : Scalar T) (tb : table T) cs s p e, sane tb -> consistent (sig_of tb) -> spaced_by tb cs ->
  Renders (sig_of tb) p e (lex_from is_space (one_of cs) "" s) -> exists n, parse tb s = Ok n /\ tree_of tb e n.
Proof. exact @parse_correct. Qed.
Print Assumptions C38_parse_any.
(** every expression is parsed from its minimally parenthesised text *)
Theorem C38_minimal : forall T (S : Scalar T) e p, well_formed documented e -> Forall (lexeme special_chars) (operands e) ->
  exists n, parse (@default_table T S) (join (minimal documented p e) " ") = Ok n /\ tree_of default_table e n.
Proof. exact @dt_minimal. Qed.
Print Assumptions C38_minimal.
(** and its value is the value of the expression *)
Theorem C38_value : forall T (S : Scalar T) s p e m, Renders documented p e (lex_from is_space (one_of special_chars) "" s) ->
  exists n, parse (@default_table T S) s = Ok n /\
  node_evaluate m n = match value (operand_value m) (name1 default_table) (name2 default_table) e with Some v => Ok v | None => Throw EFunction end.
Proof. exact @dt_value. Qed.
Print Assumptions C38_value.
(** the meaning of the names: functions of <cmath> stand for themselves *)
Theorem C38_cmath : forall T (S : Scalar T),
  (forall n f, In (n, f) cmath1 -> name1 default_table n = s_fn1 f) /\ (forall n f, In (n, f) cmath2 -> name2 default_table n = s_fn2 f).
Proof. exact @cmath_meaning. Qed.
Print Assumptions C38_cmath.
(** the others, in exact arithmetic *)
Theorem C38_arithmetic : forall (P : xparam) (a b : R), let F1 := name1 (@default_table xr (XRScalar P)) in let F2 := name2 (@default_table xr (XRScalar P)) in
 (F2 "+" (XFin a) (XFin b) = XFin (a + b) /\ F2 "-" (XFin a) (XFin b) = XFin (a - b) /\ F2 "*" (XFin a) (XFin b) = XFin (a * b) /\
  (b <> 0 -> F2 "/" (XFin a) (XFin b) = XFin (a / b)) /\ F1 "~" (XFin a) = XFin (- a) /\
  F2 "min" (XFin a) (XFin b) = XFin (Rmin a b) /\ F2 "max" (XFin a) (XFin b) = XFin (Rmax a b) /\
  F1 "abs" (XFin a) = XFin (Rabs a) /\ F1 "fabs" (XFin a) = XFin (Rabs a) /\ (0 <= a -> F1 "sqrt" (XFin a) = XFin (sqrt a)) /\
  F1 "exp" (XFin a) = XFin (exp a) /\ (0 < a -> F1 "log" (XFin a) = XFin (ln a)) /\ F1 "cos" (XFin a) = XFin (cos a) /\
  (0 < a -> F2 "^" (XFin a) (XFin b) = XFin (Rpower a b)) /\ (forall n : nat, (0 < n)%nat -> F2 "^" (XFin a) (XFin (INR n)) = XFin (a ^ n)))%R.
Proof. exact arithmetic_meaning. Qed.
Print Assumptions C38_arithmetic.
Theorem C38_rounding : forall (P : xparam) (a : R), let F1 := name1 (@default_table xr (XRScalar P)) in
 ((exists z, F1 "floor" (XFin a) = XFin (IZR z) /\ IZR z <= a < IZR z + 1) /\
  (exists z, F1 "ceil" (XFin a) = XFin (IZR z) /\ IZR z - 1 < a <= IZR z) /\
  (exists z, F1 "round" (XFin a) = XFin (IZR z) /\ (0 < a -> IZR z - 1/2 <= a < IZR z + 1/2) /\ (a <= 0 -> IZR z - 1/2 < a <= IZR z + 1/2)))%R.
Proof. exact rounding_meaning. Qed.
Print Assumptions C38_rounding.
Theorem C38_comparisons : forall (P : xparam) (a b : R), let F2 := name2 (@default_table xr (XRScalar P)) in xp_eps P = 0%R ->
 (truth (F2 "lt" (XFin a) (XFin b)) (a < b) /\ truth (F2 "le" (XFin a) (XFin b)) (a <= b) /\ truth (F2 "eq" (XFin a) (XFin b)) (a = b) /\
  truth (F2 "neq" (XFin a) (XFin b)) (a <> b) /\ truth (F2 "ge" (XFin a) (XFin b)) (a >= b) /\ truth (F2 "gt" (XFin a) (XFin b)) (a > b))%R.
Proof. exact comparison_meaning. Qed.
Print Assumptions C38_comparisons.
Theorem C38_logic : forall (P : xparam) (a b : R), let F1 := name1 (@default_table xr (XRScalar P)) in let F2 := name2 (@default_table xr (XRScalar P)) in
 (xp_eps P <= 1 -> a = 0 \/ a = 1 -> b = 0 \/ b = 1 ->
  truth (F1 "!" (XFin a)) (a <> 1) /\ truth (F2 "and" (XFin a) (XFin b)) (a = 1 /\ b = 1) /\ truth (F2 "or" (XFin a) (XFin b)) (a = 1 \/ b = 1))%R.
Proof. exact logic_meaning. Qed.
Print Assumptions C38_logic.
(** a function name without parentheses takes all that follows, postfix text is accepted, and exponents are torn apart *)
Theorem C38_call_without_parentheses_refuted : exists s n, (parse (@default_table f64 (F64Scalar fp_default)) s = Ok n) /\
  s = "sin a + b" /\ parse (@default_table f64 (F64Scalar fp_default)) "sin (a + b)" = Ok n.
Proof. exists "sin a + b". eexists. split; [reflexivity|]. split; reflexivity. Qed.
Print Assumptions C38_call_without_parentheses_refuted.
Theorem C38_postfix_accepted_refuted : exists s, s = "a b +" /\
  parse (@default_table f64 (F64Scalar fp_default)) s = parse (@default_table f64 (F64Scalar fp_default)) "a + b" /\ exists n, parse (@default_table f64 (F64Scalar fp_default)) s = Ok n.
Proof. exists "a b +". split; [reflexivity|]. split; [reflexivity|]. eexists. reflexivity. Qed.
Print Assumptions C38_postfix_accepted_refuted.
Theorem C38_exponent_refuted : exists s, s = "1e-5" /\ @is_numeric f64 (F64Scalar fp_default) s = true /\
  parse (@default_table f64 (F64Scalar fp_default)) s = parse (@default_table f64 (F64Scalar fp_default)) "1e - 5" /\
  exists n, parse (@default_table f64 (F64Scalar fp_default)) s = Ok n /\ node_evaluate [] n = Throw EFunction.
Proof. exists "1e-5". split; [reflexivity|]. exact exponent_torn. Qed.
Print Assumptions C38_exponent_refuted.
Example C38_case : minimal documented 0 (In_ "^" (In_ "+" (Operand "a") (In_ "*" (Operand "b") (Operand "c"))) (In_ "^" (Operand "a") (Pre "~" (Call2 "max" (Operand "b") (Operand "c")))))
    = ["("; "a"; "+"; "b"; "*"; "c"; ")"; "^"; "a"; "^"; "~"; "max"; "("; "b"; ","; "c"; ")"] /\
  well_formed documented (In_ "-" (In_ "-" (Operand "a") (Operand "b")) (Operand "c")) /\
  (exists n, parse (@default_table f64 (F64Scalar fp_default)) "a-b-c" = Ok n /\ node_prefix 3 n = "- - a b c") /\
  (exists n, parse (@default_table f64 (F64Scalar fp_default)) "a^b^c" = Ok n /\ node_prefix 3 n = "^ a ^ b c") /\
  (exists n, parse (@default_table f64 (F64Scalar fp_default)) "!a+b*c and d" = Ok n /\ node_prefix 3 n = "and + ! a * b c d").
Proof.
  split; [reflexivity|]. split. { simpl. repeat split; try (exists 70%Z, true; reflexivity); intros [H|[H|H]]; discriminate. }
  split; [eexists; split; reflexivity|]. split; eexists; split; reflexivity.
Qed.

(** * C39 *)
(** for every text: an exception or a tree whose operators and functions have exactly their number of children *)
Theorem C39_parse_total : forall T (S : Scalar T) s, match parse (@default_table T S) s with Ok n => parsed default_table n | Throw _ => True | UB => False | Diverge => False end.
Proof. intros T S s. exact (parse_total default_table s dt_sane dt_empty). Qed.
Print Assumptions C39_parse_total.
(** the same for any table of unary and binary elements *)
Theorem C39_parse_total_any : forall T (S : Scalar T) (tb : table T) s, sane tb -> get_object tb "" = None ->
  match parse tb s with Ok n => parsed tb n | Throw _ => True | UB => False | Diverge => False end.
Proof. intros T S tb s. exact (parse_total tb s). Qed.
Print Assumptions C39_parse_total_any.
(** evaluation gives a number exactly if all variables of the tree are defined, and throws otherwise *)
Theorem C39_evaluate_total : forall T (S : Scalar T) (tb : table T) n, parsed tb n -> forall m,
  (exists v, node_evaluate m n = Ok v /\ forall x, In x (free n) -> vget m x <> None) \/
  (node_evaluate m n = Throw EFunction /\ exists x, In x (free n) /\ vget m x = None).
Proof. exact @eval_total. Qed.
Print Assumptions C39_evaluate_total.
(** only the values of the tree's variables matter *)
Theorem C39_evaluate_variables : forall T (n : node T) m m', (forall v, In v (free n) -> vget m v = vget m' v) -> node_evaluate m n = node_evaluate m' n.
Proof. exact @eval_ext. Qed.
Print Assumptions C39_evaluate_variables.
(** registering an element without function pointers (arity 0) makes parsing undefined *)
Theorem C39_arity0_refuted : exists (tb : table f64) s, @parse f64 (F64Scalar fp_default) tb s = UB.
Proof. exists [("f", {| el_name := "f"; el_operator := false; el_fun := FnNone; el_arity := 0; el_precedence := 0; el_associativity := -1 |})], "f". reflexivity. Qed.
Print Assumptions C39_arity0_refuted.
Example C39_case : (exists n v, parse (@default_table f64 (F64Scalar fp_default)) "max(a, b)*c" = Ok n /\ free n = ["a"; "b"; "c"] /\
    node_evaluate [("a", f64_dec 1 0); ("b", f64_dec 2 0); ("c", f64_dec 3 0)] n = Ok v /\ Beqb v (f64_dec 6 0) = true /\ node_evaluate [("a", f64_dec 1 0)] n = Throw EFunction) /\
  parse (@default_table f64 (F64Scalar fp_default)) "(a" = Throw ESyntax /\ parse (@default_table f64 (F64Scalar fp_default)) "a +" = Throw EFunction /\
  parse (@default_table f64 (F64Scalar fp_default)) "a b" = Throw EFunction /\ parse (@default_table f64 (F64Scalar fp_default)) "" = Throw EFunction.
Proof.
  split; [|repeat split; vm_compute; reflexivity]. 
  eexists. eexists. split; [reflexivity|]. split; [reflexivity|]. split; [reflexivity|]. split; vm_compute; reflexivity.
Qed.

(** * C40 *)
(** the postfix text of a tree whose constants survive printing is read back, by the second half of parse, as the same tree *)
Theorem C40_postfix : forall T (S : Scalar T) (tb : table T) d n, isNaN s_nan = true -> parsed tb n -> (forall c, constant_of c n -> reads_as tb d c c) ->
  build_tree tb (tokens (node_postfix d n)) = Ok n.
Proof. exact @postfix_same. Qed.
Print Assumptions C40_postfix.
(** binary64, any decimals, any formula: the tree read back has the same structure and close constants, and prints the same *)
Theorem C40_postfix_f64 : forall P d s n, @parse f64 (F64Scalar P) (@default_table f64 (F64Scalar P)) s = Ok n ->
  exists n', @build_tree f64 (F64Scalar P) (@default_table f64 (F64Scalar P)) (tokens (@node_postfix f64 (F64Scalar P) d n)) = Ok n' /\
  @alike f64 (F64Scalar P) (fun c c' => (is_finite c = true /\ is_finite c' = true /\ (Rabs (B2R c' - B2R c) <= / IZR (10 ^ Z.of_nat d))%R) \/ c' = c) n n' /\
  @node_postfix f64 (F64Scalar P) d n' = @node_postfix f64 (F64Scalar P) d n /\ @node_prefix f64 (F64Scalar P) d n' = @node_prefix f64 (F64Scalar P) d n /\
  @node_infix f64 (F64Scalar P) d n' = @node_infix f64 (F64Scalar P) d n.
Proof. exact dt_postfix. Qed.
Print Assumptions C40_postfix_f64.
(** two trees with the same prefix text are the same *)
Theorem C40_prefix_unique : forall T (S : Scalar T) (tb : table T) d m n, isNaN s_nan = true -> parsed tb m -> parsed tb n ->
  (forall c, constant_of c m -> reads_as tb d c c) -> (forall c, constant_of c n -> reads_as tb d c c) ->
  node_prefix d m = node_prefix d n -> m = n.
Proof. exact @prefix_unique. Qed.
Print Assumptions C40_prefix_unique.
(** infix text loses parentheses and the commas of calls: it is read as another tree, or not at all *)
Theorem C40_infix_refuted : exists s n n', parse (@default_table f64 (F64Scalar fp_default)) s = Ok n /\
  parse (@default_table f64 (F64Scalar fp_default)) (node_infix 3 n) = Ok n' /\ node_prefix 3 n <> node_prefix 3 n'.
Proof. exists "(a+b)*c". eexists. eexists. split; [reflexivity|]. split; [reflexivity|]. vm_compute. discriminate. Qed.
Print Assumptions C40_infix_refuted.
(** the infix text of a constant nan is empty *)
Theorem C40_infix_nan_refuted : exists s n, parse (@default_table f64 (F64Scalar fp_default)) s = Ok n /\ node_infix 3 n = "" /\ node_postfix 3 n = "nan".
Proof. exists "nan". eexists. split; [reflexivity|]. split; reflexivity. Qed.
Print Assumptions C40_infix_nan_refuted.
(** postfix text given to parse as a formula may be read as another tree *)
Theorem C40_postfix_as_formula_refuted : exists s n n', parse (@default_table f64 (F64Scalar fp_default)) s = Ok n /\
  parse (@default_table f64 (F64Scalar fp_default)) (node_postfix 3 n) = Ok n' /\ node_prefix 3 n <> node_prefix 3 n'.
Proof. exists "(a+b)*c". eexists. eexists. split; [reflexivity|]. split; [reflexivity|]. vm_compute. discriminate. Qed.
Print Assumptions C40_postfix_as_formula_refuted.
(** constants with more decimals than are printed change *)
Theorem C40_constants_refuted : exists s n n', parse (@default_table f64 (F64Scalar fp_default)) s = Ok n /\
  build_tree (@default_table f64 (F64Scalar fp_default)) (tokens (node_postfix 3 n)) = Ok n' /\ n <> n'.
Proof. exact constants_change. Qed.
Print Assumptions C40_constants_refuted.
Example C40_case : exists n, parse (@default_table f64 (F64Scalar fp_default)) "(a + 2.5) * min(b, ~c)" = Ok n /\ node_postfix 3 n = "a 2.500 + b c ~ min *" /\
  node_prefix 3 n = "* + a 2.500 min b ~ c" /\ node_infix 3 n = "a + 2.500 * min ( b ~ c )".
Proof.
  assert (H : okb (parse (@default_table f64 (F64Scalar fp_default)) "(a + 2.5) * min(b, ~c)") (fun n => String.eqb (node_postfix 3 n) "a 2.500 + b c ~ min *" &&
    String.eqb (node_prefix 3 n) "* + a 2.500 min b ~ c" && String.eqb (node_infix 3 n) "a + 2.500 * min ( b ~ c )")%bool = true) by (vm_compute; reflexivity).
  apply okb_ex in H. destruct H as (n & E & H). apply andb_prop in H. destruct H as [H H3]. apply andb_prop in H. destruct H as [H1 H2]. apply String.eqb_eq in H1, H2, H3. exists n. auto.
Qed.

(** * C41 *)
(** after a failed load the term reports the new formula and still evaluates the old one *)
Theorem C41_stale_refuted : exists (st st' : fstate f64) s e x v, fn_load (@default_table f64 (F64Scalar fp_default)) st s false [] = (st', Throw e) /\
  fn_formula st' = s /\ fn_root st' <> None /\ snd (fn_membership st' [] x) = Ok v /\ parse (@default_table f64 (F64Scalar fp_default)) s = Throw e.
Proof. exact stale_exists. Qed.
Print Assumptions C41_stale_refuted.
(** in general: what a failed load leaves *)
Theorem C41_failed_load : forall T (S : Scalar T) tb (st : fstate T) s eng ctx st' e, fn_load tb st s eng ctx = (st', Throw e) ->
  fn_formula st' = s /\ fn_engine st' = eng /\
  match parse tb s with Ok n => fn_root st' = Some n | _ => fn_root st' = fn_root st /\ fn_vars st' = fn_vars st end.
Proof. exact @load_failed. Qed.
Print Assumptions C41_failed_load.
(** a term that was not loaded before is not loaded by a formula that does not parse: membership throws *)
Theorem C41_fresh_failed_load : forall T (S : Scalar T) tb (st : fstate T) s eng ctx st' e, fn_root st = None -> parse tb s = Throw e ->
  fn_load tb st s eng ctx = (st', Throw e) -> forall ctx' x, snd (fn_membership st' ctx' x) = Throw EFunction.
Proof. exact @fresh_failed. Qed.
Print Assumptions C41_fresh_failed_load.
(** a successful load replaces formula and tree, whatever the state before *)
Theorem C41_successful_load : forall T (S : Scalar T) tb (st : fstate T) s eng ctx st', fn_load tb st s eng ctx = (st', Ok tt) ->
  exists n, parse tb s = Ok n /\ fn_formula st' = s /\ fn_root st' = Some n /\ fn_engine st' = eng /\ (exists v, node_evaluate (fn_vars st') n = Ok v) /\
  (forall v, vget (fn_vars st') v = environment (if eng then ctx else []) s_0 (vget (fn_vars st)) v).
Proof. exact @load_ok. Qed.
Print Assumptions C41_successful_load.
(** after which every membership has a value *)
Theorem C41_loaded_defined : forall T (S : Scalar T) (st : fstate T) s eng ctx st', fn_load default_table st s eng ctx = (st', Ok tt) ->
  forall ctx' x, exists v, snd (fn_membership st' ctx' x) = Ok v.
Proof. intros T S st s eng ctx st'. exact (loaded_defined default_table st s eng ctx st' dt_sane dt_empty). Qed.
Print Assumptions C41_loaded_defined.
(** the value is that of the tree with x, the engine's values, and what was in the map, in this order *)
Theorem C41_membership : forall T (st : fstate T) n ctx x, fn_root st = Some n ->
  snd (fn_membership st ctx x) = node_evaluate (fn_vars (fst (fn_membership st ctx x))) n /\
  forall v, vget (fn_vars (fst (fn_membership st ctx x))) v = environment (if fn_engine st then ctx else []) x (vget (fn_vars st)) v.
Proof. exact @membership_value. Qed.
Print Assumptions C41_membership.
(** Function::evaluate: the variables given come first, then those given before *)
Theorem C41_evaluate : forall T (st : fstate T) n locals, fn_root st = Some n -> let st' := fst (fn_evaluate st locals) in
  snd (fn_evaluate st locals) = node_evaluate (fn_vars st') n /\ fn_root st' = Some n /\
  forall v, vget (fn_vars st') v = match lookup_last locals v with Some y => Some y | None => vget (fn_vars st) v end.
Proof. exact @evaluate_value. Qed.
Print Assumptions C41_evaluate.
(** if all variables of the formula are given, memberships computed before do not matter *)
Theorem C41_evaluate_given : forall T (st : fstate T) n locals ctx x, fn_root st = Some n -> (forall v, In v (free n) -> In v (map fst locals)) ->
  snd (fn_evaluate (fst (fn_membership st ctx x)) locals) = snd (fn_evaluate st locals).
Proof. exact @evaluate_given. Qed.
Print Assumptions C41_evaluate_given.
(** otherwise they do: a variable that is not given has the value given before, instead of being an error *)
Theorem C41_evaluate_remembers_refuted : exists (st : fstate f64) n locals v, fn_root st = Some n /\ snd (fn_evaluate st []) = Throw EFunction /\
  snd (fn_evaluate (fst (fn_evaluate st locals)) []) = Ok v.
Proof.
  exists {| fn_formula := "a"; fn_root := Some (@mk_variable f64 (F64Scalar fp_default) "a"); fn_vars := []; fn_engine := false |}, (@mk_variable f64 (F64Scalar fp_default) "a"), [("a", f64_dec 1 0)], (f64_dec 1 0).
  repeat split.
Qed.
Print Assumptions C41_evaluate_remembers_refuted.
(** an unloaded term keeps its formula and has no value *)
Theorem C41_unload : forall T (st : fstate T), fn_formula (fn_unload st) = fn_formula st /\
  (forall ctx x, fn_membership (fn_unload st) ctx x = (fn_unload st, Throw EFunction)) /\ (forall locals, fn_evaluate (fn_unload st) locals = (fn_unload st, Throw EFunction)).
Proof. exact @unloaded_throws. Qed.
Print Assumptions C41_unload.
(** with a formula over x and the engine's variables only, nothing before the load matters *)
Theorem C41_history_independent : forall T (S : Scalar T) tb (st st2 : fstate T) s eng ctx st' st2',
  fn_load tb st s eng ctx = (st', Ok tt) -> fn_load tb st2 s eng ctx = (st2', Ok tt) ->
  (forall n v, parse tb s = Ok n -> In v (free n) -> v = "x" \/ (eng = true /\ In v (map fst ctx))) ->
  forall ctx' x, map fst ctx' = map fst ctx -> snd (fn_membership st' ctx' x) = snd (fn_membership st2' ctx' x).
Proof. exact @load_membership. Qed.
Print Assumptions C41_history_independent.
(** in general it does: a name left in the map by earlier use makes a formula load that a new term rejects *)
Theorem C41_leftover_refuted : exists (st st2 : fstate f64) s, fn_formula st = fn_formula st2 /\ fn_root st = None /\ fn_root st2 = None /\
  snd (fn_load (@default_table f64 (F64Scalar fp_default)) st s false []) = Ok tt /\
  snd (fn_load (@default_table f64 (F64Scalar fp_default)) st2 s false []) = Throw EFunction.
Proof.
  exists {| fn_formula := ""; fn_root := None; fn_vars := [("z", f64_dec 1 0)]; fn_engine := false |}, {| fn_formula := ""; fn_root := None; fn_vars := []; fn_engine := false |}, "z + x".
  repeat split; vm_compute; reflexivity.
Qed.
Print Assumptions C41_leftover_refuted.
Example C41_case : exists st' v, fn_load (@default_table f64 (F64Scalar fp_default)) {| fn_formula := ""; fn_root := None; fn_vars := []; fn_engine := false |} "a*x + b" true
    [("a", f64_dec 2 0); ("b", f64_dec 1 0)] = (st', Ok tt) /\
  snd (fn_membership st' [("a", f64_dec 3 0); ("b", f64_dec 1 0)] (f64_dec 5 0)) = Ok v /\ Beqb v (f64_dec 16 0) = true /\ fn_formula st' = "a*x + b".
Proof. eexists. eexists. split; [reflexivity|]. split; [reflexivity|]. split; vm_compute; reflexivity. Qed.
