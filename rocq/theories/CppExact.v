(** Engines rebuilt exactly by generated code. *)
From Coq Require Import ZArith List Bool String Ascii Arith Lia.
From Flocq Require Import IEEE754.BinarySingleNaN.
From Verif Require Import Base Op F64 F64Arith Norm Hedge Shape Discrete Defuzz Aggregated Text Function Rule Var Activation Engine Factory SpecText TextProofs TextProofs2
  Fll SpecFll FllText FllLines FllExport FllRound FllFix FllSame TextF64 FllF64 FllBundle Fis FclText FclRound2 FclBundle Cpp SpecCpp CppSyntax CppAtoms CppRun CppProgram CppBundle Java SpecJava JavaProofs JavaBundle SpecExact.
Import ListNotations.
Local Open Scope string_scope.

Section Exact.
Context {T : Type} `{S : Scalar T}.
Variables (d : nat).
Hypothesis N : printable (T := T) d.
Lemma short_reread (x : T) : short d x -> reread d x = x. Proof. unfold short, reread. intro H. now rewrite H. Qed.
Lemma short_list (l : list T) : Forall (short d) l -> map (reread d) l = l.
Proof. intro F. induction F as [|x l H F IH]; [reflexivity|]. cbn [map]. now rewrite (short_reread x H), IH. Qed.
Lemma shape_exact (s : shape T) : Forall (short d) (shape_list s) -> shape_map (reread d) s = s.
Proof. destruct s; cbn [shape_list shape_map]; intro F; repeat match goal with H : Forall _ (_ :: _) |- _ => inversion_clear H end; now rewrite !short_reread. Qed.
Lemma term_exact vw t : exact_term d t -> rebuilt_term d vw t = Ok t.
Proof.
  unfold exact_term, rebuilt_term, printed_height, plain_height. destruct t as [name h b]. cbn [tm_body tm_height tm_name]. destruct b as [s|xy|v|cs b|f]; cbn [rbind].
  - intros [F H]. rewrite (shape_exact s F). destruct H as [-> |[E H]]; [now rewrite (pr_one d N)|]. now rewrite E, (short_reread h H).
  - intros [F ->]. rewrite (pr_one d N). do 3 f_equal. induction F as [|[a b] l [A B] F IH]; [reflexivity|]. cbn [map fst snd] in *. now rewrite !short_reread, IH.
  - intros [F ->]. now rewrite (short_reread v F).
  - intros (F & -> & ->). now rewrite (short_list cs F).
  - intros [].
Qed.
Lemma all_exact {A} (f : A -> res A) l : Forall (fun a => f a = Ok a) l -> rmapM f l = Ok l.
Proof. intro F. induction F as [|a l H F IH]; [reflexivity|]. cbn [rmapM]. now rewrite H, IH. Qed.
Lemma variable_exact vw v : exact_variable d v -> rebuilt_variable d vw v = Ok v.
Proof.
  intros (A & B & C & F). unfold rebuilt_variable. rewrite all_exact; [|eapply Forall_impl; [|exact F]; intros t H; now apply term_exact]. cbn [rbind]. rewrite !short_reread by assumption. destruct v. cbn in *. now rewrite C.
Qed.
Lemma output_exact vw o : exact_output d o -> rebuilt_output d vw o = Ok o.
Proof. intros (A & B & C & D). unfold rebuilt_output. rewrite (variable_exact vw _ A). cbn [rbind]. rewrite short_reread by assumption. destruct o. cbn in *. now rewrite C, D. Qed.
Lemma rule_exact env (r : rule T) : exact_rule env r -> rebuilt_rule env r = Ok r.
Proof.
  intros [r0 E]. unfold rebuilt_rule. revert E. unfold rule_load. destruct (rule_split (rl_text r)) as [[[a c] w]| | |]; try discriminate. destruct (antecedent_load env a); try discriminate. destruct (consequent_load env c); try discriminate. intro E. injection E as E. cbn [rbind]. f_equal. rewrite <- E at 2. reflexivity.
Qed.
Lemma block_exact env (b : block T) : exact_block d env b -> rebuilt_block d env b = Ok b.
Proof.
  intros [F A]. unfold rebuilt_block. rewrite all_exact; [|eapply Forall_impl; [|exact F]; apply rule_exact]. cbn [rbind]. destruct b. cbn in *. do 2 f_equal. destruct b_activation as [[]|]; cbn; rewrite ?short_reread by exact A; reflexivity.
Qed.
Theorem rebuilt_exact e : exact_engine d e -> rebuilt d e = Ok e.
Proof.
  intros (FI & FO & FB). unfold rebuilt.
  assert (I : forall before, rebuilt_inputs d before (e_inputs e) = Ok (before ++ e_inputs e)%list).
  { clear - FI N. induction FI as [|v vs H F IH]; intro bef; [cbn; now rewrite app_nil_r|]. cbn [rebuilt_inputs]. rewrite (variable_exact _ v H). cbn [rbind]. rewrite IH, <- app_assoc. reflexivity. }
  assert (O : forall ins before, rebuilt_outputs d ins before (e_outputs e) = Ok (before ++ e_outputs e)%list).
  { clear - FO N. induction FO as [|v vs H F IH]; intros ins bef; [cbn; now rewrite app_nil_r|]. cbn [rebuilt_outputs]. rewrite (output_exact _ v H). cbn [rbind]. rewrite IH, <- app_assoc. reflexivity. }
  rewrite I. cbn [rbind app]. rewrite O. cbn [rbind app]. rewrite all_exact; [destruct e; reflexivity|]. eapply Forall_impl; [|exact FB]. intro b. apply block_exact.
Qed.
End Exact.

(** ** binary64 *)
Section Code.
Variables (P : fparam) (d : nat) (library : string) (named : bool).
Hypothesis fine : fine_tolerance P d.
Hypothesis decimals : d <> 0%nat.
Hypothesis library_line : one_line library.
Let N : @printable f64 (F64Scalar P) d := fine_printable P d fine.
Lemma code_exact namespaced e : @expressible f64 (F64Scalar P) namespaced named e -> @exact_engine f64 (F64Scalar P) d e ->
  exists text, @cpp_export f64 (F64Scalar P) d library namespaced named e = Ok text /\ @run_cpp f64 (F64Scalar P) text = Ok e.
Proof.
  intros X F. destruct (code_text P d library namespaced named fine decimals library_line e X) as (t & E & R). exists t. split; [exact E|]. rewrite R. exact (rebuilt_exact d N e F).
Qed.
Lemma java_exact e : @java_expressible f64 (F64Scalar P) named e -> @exact_engine f64 (F64Scalar P) d e ->
  exists text, @java_export f64 (F64Scalar P) d library named e = Ok text /\ @run_java f64 (F64Scalar P) text = Ok e.
Proof.
  intros X F. destruct (java_code P d library named fine decimals library_line e X) as (t & E & R). exists t. split; [exact E|]. rewrite R. exact (rebuilt_exact d N e F).
Qed.
End Code.

(** ** a case *)
#[local] Hint Extern 9 (Scalar _) => exact (F64Scalar fp_default) : typeclass_instances.
Lemma short_ok (x : f64) : match @to_scalar f64 (F64Scalar fp_default) (@str f64 (F64Scalar fp_default) 3 x) with Ok y => match B2SF y, B2SF x with
    | SpecFloat.S754_zero s, SpecFloat.S754_zero t => Bool.eqb s t | SpecFloat.S754_finite s m e, SpecFloat.S754_finite t n f => Bool.eqb s t && Pos.eqb m n && Z.eqb e f
    | _, _ => false end | _ => false end%bool = true -> @short f64 (F64Scalar fp_default) 3 x.
Proof.
  unfold short. destruct (to_scalar _) as [y| | |]; try discriminate. intro H. f_equal. apply B2SF_inj. destruct (B2SF y), (B2SF x); try discriminate.
  - apply Bool.eqb_prop in H. now subst.
  - rewrite !andb_true_iff in H. destruct H as [[A B] C]. apply Bool.eqb_prop in A. apply Pos.eqb_eq in B. apply Z.eqb_eq in C. now subst.
Qed.
Definition gauge : variable f64 := mkVariable "level" "how full" s_nan (q 0 1) (q 1 1) true false
  [mkTerm "low" s_1 (TShape (Ramp (q 1 1) (q 0 1))); mkTerm "mid" (q 1 2) (TShape (Trapezoid (q 0 1) (q 1 4) (q 3 8) (q 1 1)));
   mkTerm "high" s_1 (TDiscrete [(q 0 1, q 0 1); (q 1 1, q 1 1)])].
Definition burner : output f64 :=
  mkOutput (mkVariable "power" "" s_nan (f64_lit (-1) 1) (q 5 2) true true [mkTerm "off" s_1 (TConstant (q 1 10)); mkTerm "some" s_1 (TLinear [q 1 2; q 1 4] true); mkTerm "full" s_1 (TShape (Triangle (q 1 2) (q 3 4) (q 1 1)))])
    [] None (Some (DWeighted WeightedAverage WAutomatic)) s_nan (q 1 8) true.
Definition loaded (text : string) : rule f64 := fst (rule_load (engine_env [gauge] [burner]) text (rule_new text s_1)).
Definition boiler : engine f64 := mkEngine "boiler" "" [gauge] [burner]
  [mkBlock true "rules" "" [loaded "if level is low or level is not mid then power is full with 0.5"; loaded "if level is high then power is off"] None (Some Maximum) (Some AlgebraicProduct) (Some (First 1 (q 1 4)))].
Ltac shorts := apply short_ok; vm_compute; reflexivity.
Lemma loaded_exact text : @snd (rule f64) (res unit) (rule_load (engine_env [gauge] [burner]) text (rule_new text s_1)) = Ok tt -> exact_rule (engine_env [gauge] [burner]) (loaded text).
Proof.
  intro H. exists (rule_new text s_1). unfold loaded. assert (L := load_text (engine_env [gauge] [burner]) text (rule_new text s_1)). destruct (rule_load _ text _) as [r o] eqn:E. cbn [fst snd] in *. subst o. rewrite L. exact E.
Qed.
Lemma boiler_exact : exact_engine 3 boiler.
Proof.
  split; [|split]; cbn [boiler e_inputs e_outputs e_blocks].
  - apply Forall_cons; [|apply Forall_nil]. split; [shorts|]. split; [shorts|]. split; [reflexivity|]. cbn [gauge v_terms]. repeat apply Forall_cons; try apply Forall_nil; unfold exact_term; cbn [tm_body tm_height shape_list].
    + split; [repeat (apply Forall_cons; [shorts|]); apply Forall_nil|left; reflexivity].
    + split; [repeat (apply Forall_cons; [shorts|]); apply Forall_nil|right; split; [vm_compute; reflexivity|shorts]].
    + split; [repeat (apply Forall_cons; [split; shorts|]); apply Forall_nil|reflexivity].
  - apply Forall_cons; [|apply Forall_nil]. split; [|split; [shorts|split; reflexivity]]. split; [shorts|]. split; [shorts|]. split; [reflexivity|]. cbn [burner o_var v_terms]. repeat apply Forall_cons; try apply Forall_nil; unfold exact_term; cbn [tm_body tm_height shape_list].
    + split; [shorts|reflexivity].
    + split; [repeat (apply Forall_cons; [shorts|]); apply Forall_nil|split; reflexivity].
    + split; [repeat (apply Forall_cons; [shorts|]); apply Forall_nil|left; reflexivity].
  - apply Forall_cons; [|apply Forall_nil]. split; [|shorts]. cbn [b_rules]. apply Forall_cons; [apply loaded_exact; vm_compute; reflexivity|]. apply Forall_cons; [apply loaded_exact; vm_compute; reflexivity|apply Forall_nil].
Qed.
Lemma boiler_expressible named : java_expressible named boiler.
Proof.
  split; [|intros _; apply apart_list; reflexivity]. split; [lit_ok|]. split; [lit_ok|]. split; [|split; [|split; [|intros _; split; [apply distinct_ok; reflexivity|apply usable_list; reflexivity]]]].
  - split; [|exact I]. split; [lit_ok|]. split; [lit_ok|]. cbn [gauge v_terms]. apply Forall_cons; [|apply Forall_cons; [|apply Forall_cons; [|apply Forall_nil]]].
    + split; [lit_ok|]. cbn [tm_body shape_list]. split; [repeat (apply Forall_cons; [vm_compute; reflexivity|]); apply Forall_nil|left; vm_compute; reflexivity].
    + split; [lit_ok|]. cbn [tm_body shape_list]. split; [repeat (apply Forall_cons; [vm_compute; reflexivity|]); apply Forall_nil|right; vm_compute; reflexivity].
    + split; [lit_ok|]. cbn [tm_body]. split; [discriminate|]. split; [unfold int_range; cbn; lia|]. split; [repeat (apply Forall_cons; [split; vm_compute; reflexivity|]); apply Forall_nil|vm_compute; reflexivity].
  - apply Forall_cons; [|apply Forall_nil]. split; [|reflexivity]. split; [lit_ok|]. split; [lit_ok|]. cbn [burner o_var v_terms]. apply Forall_cons; [|apply Forall_cons; [|apply Forall_cons; [|apply Forall_nil]]].
    + split; [lit_ok|]. cbn [tm_body]. vm_compute. reflexivity.
    + split; [lit_ok|]. cbn [tm_body]. split; [repeat (apply Forall_cons; [vm_compute; reflexivity|]); apply Forall_nil|reflexivity].
    + split; [lit_ok|]. cbn [tm_body shape_list]. split; [repeat (apply Forall_cons; [vm_compute; reflexivity|]); apply Forall_nil|left; vm_compute; reflexivity].
  - apply Forall_cons; [|apply Forall_nil]. split; [lit_ok|]. split; [lit_ok|]. split; [|split; [unfold int_range; lia|vm_compute; reflexivity]].
    cbn [b_rules]. unfold loaded. apply Forall_cons; [rewrite load_text; lit_ok|]. apply Forall_cons; [rewrite load_text; lit_ok|apply Forall_nil].
Qed.
