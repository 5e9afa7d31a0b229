(** What export to and import from the FuzzyLite Language should do. *)
From Coq Require Import ZArith List Bool String Ascii Reals.
From Flocq Require Import BinarySingleNaN.
From Verif Require Import Base Op Norm Hedge Shape Discrete Defuzz Aggregated Text Function Rule Var Activation Engine Factory F64 Fll.
Import ListNotations.
Local Open Scope string_scope.

(** ** texts *)
Fixpoint lacks (c : ascii) (s : string) : bool := match s with "" => true | String x r => (negb (Ascii.eqb x c) && lacks c r)%bool end.
Definition one_line (s : string) : Prop := lacks newline s = true.
(** a line without its comment *)
Fixpoint uncomment (s : string) : string :=
  match s with "" => "" | String c r => if Ascii.eqb c "#" then "" else String c (uncomment r) end.
(** what a line or a value holds: no comment, no blanks at either end (see C59 for [trim]) *)
Definition content (s : string) : string := trim (uncomment s).
(** the pieces of a text between single spaces, the empty ones left out *)
Fixpoint chop (c : ascii) (s : string) : list string :=
  match s with
  | "" => [""]
  | String x r => if Ascii.eqb x c then "" :: chop c r else match chop c r with p :: ps => String x p :: ps | [] => [] end
  end.
Definition nonempty (s : string) : bool := negb (sempty s).
Definition words (s : string) : list string := filter nonempty (chop " " s).
(** a text without blanks at its end *)
Fixpoint rtrim (s : string) : string :=
  match s with "" => "" | String c r => match rtrim r with "" => if is_space c then "" else char c | r' => String c r' end end.
(** what is left of a formula *)
Definition formula_content (s : string) : string := join (words (rtrim (uncomment s))) " ".
Definition blank (s : string) : bool := sforall is_space s.

(** ** lines *)
(** key and value of a line that holds something *)
Definition key_value (line : string) : option (string * string) :=
  match find_sub ":" (content line) with Some (k, v) => Some (trim k, trim v) | None => None end.
Definition key_of (line : string) : string := match key_value line with Some (k, _) => k | None => "" end.
Definition block_names : list string := ["InputVariable"; "OutputVariable"; "RuleBlock"].
Definition keys_of (block : string) : list string :=
  if String.eqb block "InputVariable" then ["InputVariable"; "description"; "enabled"; "range"; "lock-range"; "term"]
  else if String.eqb block "OutputVariable" then
    ["OutputVariable"; "description"; "enabled"; "range"; "lock-range"; "term"; "default"; "lock-previous"; "lock-valid"; "defuzzifier"; "aggregation"; "accumulation"]
  else ["RuleBlock"; "description"; "enabled"; "conjunction"; "disjunction"; "implication"; "activation"; "rule"].
Definition mem (k : string) (l : list string) : bool := existsb (String.eqb k) l.
(** the block which the line after [lines] belongs to *)
Fixpoint block_after (lines : list string) : option string :=
  match lines with
  | [] => None
  | l :: r => match block_after r with Some b => Some b | None => if mem (key_of l) block_names then Some (key_of l) else None end
  end.
(** a line that cannot be imported after [before] *)
Definition rejected (before : list string) (line : string) : Prop :=
  content line <> "" /\
  match key_value line with
  | None => True
  | Some (k, _) =>
    k <> "Engine" /\ ~ In k block_names /\
    match block_after before with None => k <> "description" | Some b => ~ In k (keys_of b) end
  end.

Section Engines.
Context {T : Type} `{S : Scalar T}.
Variable d : nat.

(** the number read from what is printed *)
Definition reread (x : T) : T := match to_scalar (str d x) with Ok y => y | _ => s_nan end.
Definition int_range (n : Z) : Prop := (-2147483648 <= n <= 2147483647)%Z.
(** printing and reading numbers *)
Record printable : Prop := {
  pr_read : forall x : T, exists y, to_scalar (str d x) = Ok y /\ str d y = str d x;
  pr_word : forall x : T, str d x <> "" /\ sforall (fun c => negb (is_space c) && negb (Ascii.eqb c "#"))%bool (str d x) = true;
  pr_int : forall n, int_range n -> exists y : T, to_scalar (str_int n) = Ok y /\ s_trunc y = Some n;
  pr_trunc : forall (x : T) n, s_trunc x = Some n -> int_range n;
  pr_one : isEq s_1 (s_1 : T) = true;
  pr_height : forall x y : T, to_scalar (str d x) = Ok y -> isEq y s_1 = true -> y = s_1 }.

(** ** what is exported and imported again *)
Definition printed_height (t : term T) : T :=
  match tm_body t with TShape _ | TDiscrete _ => if isEq (tm_height t) s_1 then s_1 else reread (tm_height t) | _ => s_1 end.
(** the function as loaded from its formula; [vw] is what a new engine shows before the variable is added to it *)
Definition loaded_function (vw : view T) (formula : string) : res (fstate T) :=
  let '(f, r) := fn_load default_table {| fn_formula := ""; fn_root := None; fn_vars := []; fn_engine := true |} formula true (vw_context vw) in
  do _ <- r; Ok f.
Definition printed_term (vw : view T) (t : term T) : res (term T) :=
  do b <- match tm_body t with
          | TShape s => Ok (TShape (shape_map reread s))
          | TDiscrete xy => Ok (TDiscrete (map (fun p => (reread (fst p), reread (snd p))) xy))
          | TConstant v => Ok (TConstant (reread v))
          | TLinear cs _ => Ok (TLinear (map reread cs) true)
          | TFunction f => do f <- loaded_function vw (formula_content (fn_formula f)); Ok (TFunction f)
          end;
  Ok (mkTerm (valid_name (tm_name t)) (printed_height t) b).
Definition printed_variable (vw : view T) (v : variable T) : res (variable T) :=
  do ts <- rmapM (printed_term vw) (v_terms v);
  Ok (mkVariable (valid_name (valid_name (v_name v))) (content (v_description v)) s_nan (reread (v_minimum v)) (reread (v_maximum v))
        (v_enabled v) (v_lock_range v) ts).
Definition printed_output (vw : view T) (o : output T) : res (output T) :=
  do v <- printed_variable vw (o_var o);
  Ok (mkOutput v [] (o_aggregation o) (o_defuzzifier o) s_nan (reread (o_default o)) (o_lock_previous o)).
Definition printed_rule (env : penv) (r : rule T) : rule T :=
  fst (rule_load env (content (rl_text r)) (rule_new (content (rl_text r)) s_1)).
Definition printed_activation (a : option (activation T)) : activation T :=
  match a with
  | None => General
  | Some (First n t) => First n (reread t) | Some (Last n t) => Last n (reread t)
  | Some (Threshold c v) => Threshold c (reread v)
  | Some a => a
  end.
Definition printed_block (env : penv) (b : block T) : block T :=
  mkBlock (b_enabled b) (content (b_name b)) (content (b_description b)) (map (printed_rule env) (b_rules b))
    (b_conjunction b) (b_disjunction b) (b_implication b) (Some (printed_activation (b_activation b))).
(** variables are added one after the other *)
Fixpoint printed_inputs (before vs : list (variable T)) : res (list (variable T)) :=
  match vs with
  | [] => Ok before
  | v :: vs => do v <- printed_variable (engine_view before []) v; printed_inputs (before ++ [v]) vs
  end.
Fixpoint printed_outputs (ins : list (variable T)) (before os : list (output T)) : res (list (output T)) :=
  match os with
  | [] => Ok before
  | o :: os => do o <- printed_output (engine_view ins before) o; printed_outputs ins (before ++ [o]) os
  end.
Definition printed_engine (e : engine T) : res (engine T) :=
  do ins <- printed_inputs [] (e_inputs e);
  do outs <- printed_outputs ins [] (e_outputs e);
  Ok (mkEngine (content (e_name e)) (content (e_description e)) ins outs (map (printed_block (engine_env ins outs)) (e_blocks e))).

(** engines that can be written: no text contains a line break, every term keeps a name, and numbers of rules and resolutions are C++ ints *)
Definition term_writable (t : term T) : Prop :=
  valid_name (tm_name t) <> "" /\ match tm_body t with TFunction f => one_line (fn_formula f) | _ => True end.
Definition variable_writable (v : variable T) : Prop := one_line (v_description v) /\ Forall term_writable (v_terms v).
Definition output_writable (o : output T) : Prop :=
  variable_writable (o_var o) /\ match o_defuzzifier o with Some (DIntegral _ n) => int_range n | _ => True end.
Definition block_writable (b : block T) : Prop :=
  one_line (b_name b) /\ one_line (b_description b) /\ Forall (fun r => one_line (rl_text r)) (b_rules b) /\
  match b_activation b with Some (First n _) | Some (Last n _) | Some (Highest n) | Some (Lowest n) => int_range n | _ => True end.
Definition writable (e : engine T) : Prop :=
  one_line (e_name e) /\ one_line (e_description e) /\ Forall variable_writable (e_inputs e) /\
  Forall output_writable (e_outputs e) /\ Forall block_writable (e_blocks e).

(** ** engines that keep their configuration *)
Definition plain_text (s : string) : Prop := one_line s /\ content s = s.
Definition plain_name (s : string) : Prop := s <> "" /\ sforall name_char s = true.
Definition plain_formula (s : string) : Prop := one_line s /\ formula_content s = s.
Definition plain_term (t : term T) : Prop := plain_name (tm_name t) /\ match tm_body t with TFunction f => plain_formula (fn_formula f) | _ => True end.
Definition plain_variable (v : variable T) : Prop := plain_name (v_name v) /\ plain_text (v_description v) /\ Forall plain_term (v_terms v).
Definition plain_output (o : output T) : Prop :=
  plain_variable (o_var o) /\ match o_defuzzifier o with Some (DIntegral _ n) => int_range n | _ => True end.
Definition plain_block (b : block T) : Prop :=
  plain_text (b_name b) /\ plain_text (b_description b) /\ Forall (fun r => plain_text (rl_text r)) (b_rules b) /\
  match b_activation b with Some (First n _) | Some (Last n _) | Some (Highest n) | Some (Lowest n) => int_range n | Some _ => True | None => False end.
Definition plain_engine (e : engine T) : Prop :=
  plain_text (e_name e) /\ plain_text (e_description e) /\ Forall plain_variable (e_inputs e) /\
  Forall plain_output (e_outputs e) /\ Forall plain_block (e_blocks e).
(** no height other than 1 is printed as 1 *)
Definition height_shown (t : term T) : Prop :=
  match tm_body t with TShape _ | TDiscrete _ => isEq (tm_height t) s_1 = true \/ isEq (reread (tm_height t)) s_1 = false | _ => True end.
Definition heights_shown (e : engine T) : Prop :=
  Forall (fun v => Forall height_shown (v_terms v)) (e_inputs e) /\ Forall (fun o => Forall height_shown (v_terms (o_var o))) (e_outputs e).
Definition no_function (t : term T) : Prop := match tm_body t with TFunction _ => False | _ => True end.
Definition no_functions (e : engine T) : Prop :=
  Forall (fun v => Forall no_function (v_terms v)) (e_inputs e) /\ Forall (fun o => Forall no_function (v_terms (o_var o))) (e_outputs e).
End Engines.

(** the same configuration, with numbers related by [num]; what is no part of the configuration is as in a new engine *)
Section Same.
Context {T : Type} `{S : Scalar T}.
Variable num : T -> T -> Prop.
Definition same_height (h h' : T) : Prop := if isEq h s_1 then h' = s_1 else num h h'.
Definition same_term (t u : term T) : Prop :=
  tm_name u = tm_name t /\
  match tm_body t, tm_body u with
  | TShape s, TShape s' => shape_class s' = shape_class s /\ Forall2 num (shape_list s) (shape_list s') /\ same_height (tm_height t) (tm_height u)
  | TDiscrete xy, TDiscrete xy' => Forall2 (fun p q => num (fst p) (fst q) /\ num (snd p) (snd q)) xy xy' /\ same_height (tm_height t) (tm_height u)
  | TConstant v, TConstant v' => num v v'
  | TLinear cs _, TLinear cs' attached => Forall2 num cs cs' /\ attached = true
  | TFunction f, TFunction f' => fn_formula f' = fn_formula f /\ fn_root f' <> None
  | _, _ => False
  end.
Definition same_variable (v w : variable T) : Prop :=
  v_name w = v_name v /\ v_description w = v_description v /\ num (v_minimum v) (v_minimum w) /\ num (v_maximum v) (v_maximum w) /\
  v_enabled w = v_enabled v /\ v_lock_range w = v_lock_range v /\ Forall2 same_term (v_terms v) (v_terms w) /\ v_value w = s_nan.
Definition same_output (o p : output T) : Prop :=
  same_variable (o_var o) (o_var p) /\ o_aggregation p = o_aggregation o /\ o_defuzzifier p = o_defuzzifier o /\ num (o_default o) (o_default p) /\
  o_lock_previous p = o_lock_previous o /\ o_fuzzy p = [] /\ o_previous p = s_nan.
Definition same_activation (a b : activation T) : Prop :=
  match a, b with
  | First n t, First n' t' => n' = n /\ num t t'
  | Last n t, Last n' t' => n' = n /\ num t t'
  | Threshold c v, Threshold c' v' => c' = c /\ num v v'
  | Highest n, Highest n' => n' = n
  | Lowest n, Lowest n' => n' = n
  | General, General => True
  | Proportional, Proportional => True
  | _, _ => False
  end.
(** rules are loaded from their texts *)
Definition same_rule (env : penv) (r s : rule T) : Prop := s = fst (rule_load env (rl_text r) (rule_new (rl_text r) s_1)) /\ rl_text s = rl_text r.
Definition same_block (env : penv) (b c : block T) : Prop :=
  b_enabled c = b_enabled b /\ b_name c = b_name b /\ b_description c = b_description b /\ Forall2 (same_rule env) (b_rules b) (b_rules c) /\
  b_conjunction c = b_conjunction b /\ b_disjunction c = b_disjunction b /\ b_implication c = b_implication b /\
  match b_activation b, b_activation c with Some a, Some a' => same_activation a a' | _, _ => False end.
Definition same_configuration (e f : engine T) : Prop :=
  e_name f = e_name e /\ e_description f = e_description e /\ Forall2 same_variable (e_inputs e) (e_inputs f) /\
  Forall2 same_output (e_outputs e) (e_outputs f) /\ Forall2 (same_block (engine_env (e_inputs f) (e_outputs f))) (e_blocks e) (e_blocks f).
End Same.

(** binary64 numbers as printed with [d] decimals *)
Section Decimals.
Variable P : fparam.
Variable d : nat.
(** the tolerance of comparisons is at most half of the last printed decimal, as 1e-6 is for 3 decimals *)
Definition fine_tolerance : Prop := is_finite (fp_eps P) = true /\ (B2R (fp_eps P) <= / IZR (10 ^ Z.of_nat d) / 2)%R.
(** at most one unit of the last decimal away; what is not finite is kept *)
Definition number_kept (x y : f64) : Prop :=
  @str f64 (F64Scalar P) d y = @str f64 (F64Scalar P) d x /\
  if is_finite x then is_finite y = true /\ (Rabs (B2R y - B2R x) <= / IZR (10 ^ Z.of_nat d))%R else y = x.
End Decimals.
