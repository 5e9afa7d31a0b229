(** The order of rules in binary64: outputs aggregated by Maximum. *)
From Coq Require Import ZArith Reals String List Bool Permutation Lia Lra.
From Flocq Require Import IEEE754.BinarySingleNaN.
From Verif Require Import Base Op XR XRFacts F64 F64Facts OpProofs Norm Shape Discrete Defuzz Aggregated Hedge Text Function Rule Var Activation Engine
  SpecRule SpecVar SpecActivation SpecEngine SpecUnion AggProofs2 ActivationProofs ActivationProofs2 ActivationProofs3 VarProofs EngineProofs EngineProofs2 EngineProofs3 EngineProofs4.
Import ListNotations.

(** ** results of the same steps in another order *)
Section Same.
Context {T : Type} `{S : Scalar T}.
Lemma rfold_ok {A B} (f g : A -> B -> res A) : (forall a b c, f a b = Ok c -> g a b = Ok c) -> forall l a c, rfold f a l = Ok c -> rfold g a l = Ok c.
Proof. intros E. induction l as [|b l IH]; intros a c H; cbn [rfold] in *; [exact H|]. destruct (f a b) as [d| | |] eqn:F; try discriminate H. rewrite (E _ _ _ F). cbn [rbind] in *. now apply IH. Qed.
Lemma bind_ok {A} (f g : T -> res T) x (k : T -> res A) d : (forall x y, f x = Ok y -> g x = Ok y) -> rbind (f x) k = Ok d -> rbind (g x) k = Ok d.
Proof. intro E. destruct (f x) as [y| | |] eqn:Q; cbn [rbind]; try discriminate. now rewrite (E _ _ Q). Qed.
Lemma integral_ok k (f g : T -> res T) lo hi n v : (forall x y, f x = Ok y -> g x = Ok y) -> integral_defuzzify k f lo hi n = Ok v -> integral_defuzzify k g lo hi n = Ok v.
Proof.
  intros E. destruct k; cbn [integral_defuzzify]; unfold bisector, centroid, lom, mom, som.
  all: destruct (negb _); [auto|].
  1: destruct (Z.ltb n 0); [auto|].
  all: match goal with |- rbind ?a _ = _ -> rbind ?b _ = _ => intro H; destruct a as [c| | |] eqn:F; try discriminate H; assert (b = Ok c) as ->; [|exact H] end.
  all: revert F; apply rfold_ok; intros a b d; unfold bisector_step, centroid_step, lom_step, mom_step, som_step; cbv zeta.
  all: intro K; apply (bind_ok f g _ _ _ E K).
Qed.
(** running an accumulator over results *)
Lemma fold_results {A B C} (m : B -> res C) (f : A -> C -> A) : forall l a v, rfold (fun a b => do c <- m b; Ok (f a c)) a l = Ok v <-> exists cs, Forall2 (fun b c => m b = Ok c) l cs /\ v = fold_left f cs a.
Proof.
  induction l as [|b l IH]; intros a v; cbn [rfold].
  - split; [intro H; inversion H; exists []; auto|]. intros (cs & F & ->). inversion F. reflexivity.
  - destruct (m b) as [c| | |] eqn:M; cbn [rbind].
    + rewrite IH. split.
      * intros (cs & F & ->). exists (c :: cs). auto.
      * intros (cs & F & ->). inversion F as [|? c' ? cs' M' F']; subst. rewrite M in M'. inversion M'; subst. exists cs'. auto.
    + split; [discriminate|]. intros (cs & F & _). inversion F; congruence.
    + split; [discriminate|]. intros (cs & F & _). inversion F; congruence.
    + split; [discriminate|]. intros (cs & F & _). inversion F; congruence.
Qed.
Lemma fold_perm {A C} (f : A -> C -> A) (good : A -> Prop) : (forall z c, good z -> good (f z c)) -> (forall z a b, good z -> f (f z a) b = f (f z b) a) ->
  forall l m, Permutation l m -> forall z, good z -> fold_left f l z = fold_left f m z.
Proof.
  intros G E l m H. induction H as [|x l m H IH|x y l|l m n H1 IH1 H2 IH2]; intros z Z; cbn [fold_left]; auto.
  - now rewrite (E z y x Z).
  - rewrite IH1 by exact Z. now apply IH2.
Qed.
End Same.

(** ** Maximum in binary64 *)
Section Max.
Context (P : fparam).
#[local] Hint Extern 0 (Scalar f64) => exact (F64Scalar P) : typeclass_instances.
(** NaN, the positive zero, or a positive number *)
Definition risen (z : f64) : Prop := z = B754_nan \/ z = B754_zero false \/ xltb (XFin 0) (f2x z) = true.
Lemma positive_same a b : xltb (XFin 0) (f2x a) = true -> f2x a = f2x b -> a = b.
Proof.
  intros L E. destruct a as [s|[|]| |s m e H]; cbn [f2x] in *; try discriminate L.
  - cbn [B2R xltb] in L. rewrite Rltb_false in L by lra. discriminate L.
  - destruct b as [s|[|]| |s' m' e' H']; cbn [f2x] in *; try discriminate E. reflexivity.
  - destruct b as [s'|[|]| |s' m' e' H']; cbn [f2x] in E; try discriminate E.
    + injection E as E. cbn [xltb B2R] in L, E. rewrite E in L. rewrite Rltb_false in L by lra. discriminate L.
    + injection E as E. apply B2R_inj; [reflexivity|reflexivity|exact E].
Qed.
Lemma max_cases (z c : f64) : @op_max f64 (F64Scalar P) z c = if (is_nan z || is_nan c)%bool then B754_nan else if xltb (f2x z) (f2x c) then c else z.
Proof. unfold op_max, std_max. rewrite !f_isNaN. destruct (is_nan z || is_nan c)%bool; [reflexivity|]. change (@s_ltb f64 (F64Scalar P) z c) with (Bltb z c). now rewrite f_ltb. Qed.
Lemma risen_zero x : risen x -> is_nan x = false -> xltb (XFin 0) (f2x x) = true \/ x = B754_zero false.
Proof. intros [->|[->|H]] N; [discriminate|auto|auto]. Qed.
Lemma above z c : risen z -> is_nan z = false -> xltb (f2x z) (f2x c) = true -> xltb (XFin 0) (f2x c) = true.
Proof.
  intros R N L. destruct (risen_zero z R N) as [H | -> ]; [|exact L]. destruct (f2x z) as [ | | |x], (f2x c) as [ | | |y]; cbn [xltb] in *; try discriminate; auto. destruct (Rltb_spec 0 x); [|discriminate]. destruct (Rltb_spec x y); [|discriminate]. destruct (Rltb_spec 0 y); [reflexivity|lra].
Qed.
Lemma risen_step z c : risen z -> risen (@op_max f64 (F64Scalar P) z c).
Proof.
  intro R. rewrite max_cases. destruct (is_nan z) eqn:N; [left; reflexivity|]. destruct (is_nan c) eqn:M; [left; reflexivity|]. cbn [orb]. destruct (xltb (f2x z) (f2x c)) eqn:L; [|exact R]. right. right. exact (above z c R N L).
Qed.
Lemma max_swap z a b : risen z -> @op_max f64 (F64Scalar P) (@op_max f64 (F64Scalar P) z a) b = @op_max f64 (F64Scalar P) (@op_max f64 (F64Scalar P) z b) a.
Proof.
  intro R. rewrite (max_cases z a), (max_cases z b). destruct (is_nan z) eqn:N; cbn [orb]; [rewrite !max_cases; reflexivity|].
  destruct (is_nan a) eqn:A, (is_nan b) eqn:B; cbn [orb].
  - rewrite !max_cases. cbn [is_nan orb]. reflexivity.
  - rewrite !max_cases. cbn [is_nan orb]. rewrite A. destruct (xltb (f2x z) (f2x b)); [rewrite B|rewrite N]; reflexivity.
  - rewrite !max_cases. cbn [is_nan orb]. rewrite B. destruct (xltb (f2x z) (f2x a)); [rewrite A|rewrite N]; reflexivity.
  - assert (AZ := above z a R N). assert (BZ := above z b R N).
    assert (TR : forall x y w, xltb x y = true -> xltb y w = true -> xltb x w = true) by (intros [ | | |x] [ | | |y] [ | | |w]; cbn [xltb]; try discriminate; auto; destruct (Rltb_spec x y); try discriminate; destruct (Rltb_spec y w); try discriminate; intros _ _; destruct (Rltb_spec x w); [reflexivity|lra]).
    assert (IN : forall x y w, y <> XNaN -> w <> XNaN -> x <> XNaN -> xltb x y = true -> xltb x w = false -> xltb w y = true).
    { intros [ | | |x] [ | | |y] [ | | |w] Y W X; cbn [xltb]; try congruence; auto. destruct (Rltb_spec x y); try discriminate. destruct (Rltb_spec x w); try discriminate. intros _ _. destruct (Rltb_spec w y); [reflexivity|lra]. }
    assert (NN : forall x, is_nan x = false -> f2x x <> XNaN) by (intros x H E; rewrite is_nan_f2x, E in H; discriminate H).
    assert (EQ : forall x y, x <> XNaN -> y <> XNaN -> xltb x y = false -> xltb y x = false -> x = y).
    { intros [ | | |x] [ | | |y] X Y; cbn [xltb]; try congruence; try discriminate. destruct (Rltb_spec x y); try discriminate. destruct (Rltb_spec y x); try discriminate. intros _ _. f_equal. lra. }
    assert (NA := NN a A). assert (NB := NN b B). assert (NZ := NN z N).
    destruct (xltb (f2x z) (f2x a)) eqn:ZA, (xltb (f2x z) (f2x b)) eqn:ZB; rewrite !max_cases, ?A, ?B, ?N; cbn [orb]; rewrite ?ZA, ?ZB; auto.
    + destruct (xltb (f2x a) (f2x b)) eqn:AB; [now rewrite (xltb_asym _ _ AB)|]. destruct (xltb (f2x b) (f2x a)) eqn:BA; [reflexivity|]. apply positive_same; [now apply AZ|]. now apply EQ.
    + rewrite (xltb_asym (f2x b) (f2x a)); [reflexivity|]. exact (IN (f2x z) (f2x a) (f2x b) NA NB NZ ZA ZB).
    + rewrite (xltb_asym (f2x a) (f2x b)); [reflexivity|]. exact (IN (f2x z) (f2x b) (f2x a) NB NA NZ ZB ZA).
Qed.
(** the membership in the union of activated terms *)
Lemma union_perm {A} (memb : A -> f64 -> res f64) l m x v : Permutation l m -> @agg_membership f64 (F64Scalar P) A memb (Some Maximum) l x = Ok v -> @agg_membership f64 (F64Scalar P) A memb (Some Maximum) m x = Ok v.
Proof.
  intro Pm. unfold agg_membership. destruct (isNaN x); [auto|]. destruct l as [|a l]; [apply Permutation_nil in Pm; subst m; auto|]. destruct m as [|b m]; [apply Permutation_sym, Permutation_nil in Pm; discriminate Pm|].
  rewrite !(fold_results (fun a => @ac_membership f64 (F64Scalar P) A memb a x) (@snorm_compute f64 (F64Scalar P) Maximum)). intros (cs & F & ->).
  destruct (Permutation_Forall2 Pm F) as (ds & Pd & Fd). exists ds. split; [exact Fd|]. apply (fold_perm _ risen); [intros z c; apply risen_step|intros z c d; apply max_swap|exact Pd|]. right. left. reflexivity.
Qed.

(** ** engines *)
Variable drain : drainer f64.
Lemma united_perm vw (o : output f64) k n l v : o_aggregation o = Some Maximum -> Permutation (o_fuzzy o) l ->
  @defuzzified f64 (F64Scalar P) vw (DIntegral k n) o = Ok v -> @defuzzified f64 (F64Scalar P) vw (DIntegral k n) (set_fuzzy l o) = Ok v.
Proof.
  intros A Pm. unfold defuzzified. cbn [o_var set_fuzzy o_aggregation o_fuzzy]. rewrite A. apply integral_ok. intros x y. apply union_perm. exact Pm.
Qed.
Lemma view_same ins a b : Forall2 (but_fuzzy (T:=f64)) a b -> engine_view ins a = engine_view ins b.
Proof. intros F. unfold engine_view. f_equal. f_equal. induction F as [|x y a b [E _] F IH]; [reflexivity|]. cbn. rewrite IH. rewrite E. reflexivity. Qed.
Lemma united_defuzzify vw (o p o1 : output f64) : united o -> but_fuzzy o p -> @defuzzify f64 (F64Scalar P) vw o = (o1, Ok tt) ->
  exists p1, @defuzzify f64 (F64Scalar P) vw p = (p1, Ok tt) /\ but_fuzzy o1 p1.
Proof.
  intros Sf [E Pm] H. unfold defuzzify in *.
  assert (v_enabled (o_var p) = v_enabled (o_var o)) as -> by (rewrite E; reflexivity).
  assert (o_defuzzifier p = o_defuzzifier o) as -> by (rewrite E; reflexivity).
  destruct (v_enabled (o_var o)) eqn:En; cbn [negb] in *; [|inversion H; subst; exists p; split; [reflexivity|split; assumption]].
  destruct (Sf En) as (A & k & n & D). rewrite D in *.
  destruct (@defuzzified f64 (F64Scalar P) vw (DIntegral k n) o) as [v|x| |] eqn:V; try discriminate.
  assert (@defuzzified f64 (F64Scalar P) vw (DIntegral k n) p = Ok v) as -> by (rewrite E; now apply united_perm).
  inversion H; subst o1. exists (@settle f64 (F64Scalar P) v p). split; [reflexivity|].
  split; [|exact Pm]. rewrite E. reflexivity.
Qed.
Lemma united_from ins : forall rest rest2 done done2 outs, Forall (united (T:=f64)) rest -> Forall2 but_fuzzy rest rest2 -> Forall2 but_fuzzy done done2 ->
  @defuzzify_from f64 (F64Scalar P) ins done rest = (outs, Ok tt) -> exists outs2, @defuzzify_from f64 (F64Scalar P) ins done2 rest2 = (outs2, Ok tt) /\ Forall2 but_fuzzy outs outs2.
Proof.
  induction rest as [|o rest IH]; intros rest2 done done2 outs Sf F Fd H; inversion F as [|? p ? rest3 F1 F2]; subst; cbn [defuzzify_from] in *.
  - inversion H; subst. eauto.
  - inversion Sf as [|? ? Sf1 Sf2]; subst.
    assert (engine_view ins (done2 ++ p :: rest3) = engine_view ins (done ++ o :: rest)) as -> by (symmetry; apply view_same, Forall2_app; [exact Fd|constructor; assumption]).
    destruct (@defuzzify f64 (F64Scalar P) (engine_view ins (done ++ o :: rest)) o) as [o1 u] eqn:Df. destruct u as [[]|x| |]; try discriminate.
    destruct (united_defuzzify _ _ _ _ Sf1 F1 Df) as (p1 & -> & E1). eapply IH; [exact Sf2|exact F2| |exact H]. apply Forall2_app; [exact Fd|]. constructor; [exact E1|constructor].
Qed.
(** C51: values in binary64 *)
Lemma united_values (e : engine f64) bs : Forall order_free (e_blocks e) -> Forall2 reordered_block (e_blocks e) bs -> Forall united (e_outputs e) ->
  snd (@process f64 (F64Scalar P) drain e) = Ok tt ->
  snd (@process f64 (F64Scalar P) drain (reorder e bs)) = Ok tt /\
  Forall2 but_fuzzy (e_outputs (fst (@process f64 (F64Scalar P) drain e))) (e_outputs (fst (@process f64 (F64Scalar P) drain (reorder e bs)))).
Proof.
  intros Q Rb U H. destruct (activation_phase drain e) as [[bs' fz] r] eqn:A. pose proof (phase_length _ _ _ _ _ A) as L.
  rewrite (process_phases drain e), A in H |- *.
  destruct r as [[]|x| |]; cbn [snd] in H; try discriminate.
  destruct (phase_perm drain e bs bs' fz Q Rb A) as (bs2 & fz2 & A2 & R2 & F2).
  rewrite process_phases, A2. cbn [reorder e_inputs e_name e_description]. change (cleared (reorder e bs)) with (cleared e).
  destruct (defuzzify_from (e_inputs e) [] (put_fuzzy (cleared e) fz)) as [outs r] eqn:Df. cbn [fst snd e_outputs] in *. subst r.
  assert (length fz = length (cleared e)) as L' by (unfold cleared; now rewrite map_length).
  assert (Forall2 but_fuzzy (put_fuzzy (cleared e) fz) (put_fuzzy (cleared e) fz2)) as Fp.
  { clear - F2 L'. revert fz fz2 F2 L'. unfold put_fuzzy. induction (cleared e) as [|o l IH]; intros fz fz2 F L; [constructor|]. destruct F as [|f f2 fz fz2 F1 F2]; [discriminate|].
    cbn. constructor; [split; [reflexivity|exact F1]|]. apply IH; [exact F2|]. cbn in L. lia. }
  assert (Forall united (put_fuzzy (cleared e) fz)) as Sp.
  { clear - U L. unfold put_fuzzy, cleared. revert fz L. induction (e_outputs e) as [|o l IH]; intros [|f fz] L; try discriminate L; [constructor|]. inversion U; subst. cbn. constructor; [assumption|]. apply IH; [assumption|]. cbn in L. lia. }
  destruct (united_from _ _ _ [] [] _ Sp Fp ltac:(constructor) Df) as (outs2 & -> & Fo). split; [reflexivity|exact Fo].
Qed.
End Max.
