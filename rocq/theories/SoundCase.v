(** An engine over exact arithmetic, for examples. *)
From Coq Require Import ZArith String List Bool Lia Reals Lra.
From Verif Require Import Base Op XR XRFacts Norm Hedge Shape Discrete Defuzz Aggregated Function Rule Var Activation Engine SpecNorm SpecTerm SpecDegree SpecSound ActivationProofs3 EngineProofs3 SoundBundle.
Import ListNotations.
Local Open Scope R_scope. Local Open Scope string_scope.
#[local] Hint Extern 0 (Scalar _) => exact (XRScalar xp_default) : typeclass_instances.
(** x = 1/4 is low; y is three or five *)
Definition x_exact : variable xr := mkVariable "x" "" (XFin (1/4)) (XFin 0) (XFin 1) true true [mkTerm "low" (XFin 1) (TShape (shape_map XFin (Ramp 1 0)))].
Definition y_exact : output xr := mkOutput (mkVariable "y" "" XNaN (XFin 0) (XFin 10) true true [mkTerm "three" (XFin 1) (TConstant (XFin 3)); mkTerm "five" (XFin 1) (TConstant (XFin 5))])
  [] None (Some (DWeighted WeightedAverage WAutomatic)) XNaN XNaN false.
Definition rule_exact (w : R) (t : nat) : rule xr :=
  mkRule true "" (XFin w) (XFin 0) false "" (Some (Prp (mkProp (VIn 0) [Any] (Some 0%nat)))) "" [mkProp (VOut 0) [] (Some t)].
Definition exact_engine : engine xr := mkEngine "" "" [x_exact] [y_exact] [mkBlock true "" "" [rule_exact 1 0; rule_exact (1/2) 1] None None (Some Minimum) (Some General)].

Ltac ev := lazy -[isNaN isEq isLt isGt isLE isGE s_ltb s_eqb s_leb s_mul s_add s_div s_0 s_1 s_nan bound isEq_tol IZR Rdiv Rmult Rplus XRScalar xp_default Rle Rlt].
Lemma exact_processed : exists e', process stable_drain exact_engine = (e', Ok tt) /\ map (fun o => v_value (o_var o)) (e_outputs e') = [XFin (11/3)].
Proof.
  assert (forall r, 1/2 <= r -> isGt (XFin r) (s_0 : xr) = true) as G.
  { intros r Hr. rewrite (x_0 xp_default : (s_0 : xr) = XFin 0), (x_isGt xp_default). cbn [xp_default xp_eps]. unfold Rltb. rewrite Rminus_0_r, Rabs_pos_eq by lra.
    destruct (Rlt_dec 0 r), (Rlt_dec r (/1000000)); try reflexivity; exfalso; lra. }
  assert (s_mul (XFin 1) (s_1 : xr) = XFin 1) as M1 by (rewrite (x_1 xp_default : (s_1 : xr) = XFin 1); cbn; f_equal; lra).
  assert (s_mul (XFin (1/2)) (s_1 : xr) = XFin (1/2)) as M2 by (rewrite (x_1 xp_default : (s_1 : xr) = XFin 1); cbn; f_equal; lra).
  rewrite process_phases. unfold activation_phase. ev. rewrite M1, M2, !G by lra. ev. eexists. split; [reflexivity|]. cbn [map e_outputs o_var v_value].
  assert (s_div (s_add (s_add (s_0 : xr) (s_mul (XFin 1) (XFin 3))) (s_mul (XFin (1 / 2)) (XFin 5))) (s_add (s_add (s_0 : xr) (XFin 1)) (XFin (1 / 2))) = XFin (11/3)) as E.
  { rewrite (x_0 xp_default : (s_0 : xr) = XFin 0). cbn. destruct (Req_EM_T (0 + 1 + 1 / 2) 0); [exfalso; lra|]. f_equal. field. }
  rewrite E. assert (isNaN (XFin (11/3)) = false) as N by apply (x_isNaN xp_default). rewrite N, (clamp_bound xp_default) by lra. cbn [clamp]. rewrite Rmin_right, Rmax_right by lra. reflexivity.
Qed.
Lemma low_proper : proper (xp_eps xp_default) (mkTerm "low" (XFin 1) (TShape (shape_map XFin (Ramp 1 0)))) (XFin (1/4)).
Proof.
  constructor; [lra| | | |]; cbn [well_ordered oriented wide in_vertex_band xp_default xp_eps].
  all: try exact I; try lra. right. rewrite Rabs_left; lra.
Qed.
Lemma exact_sound : SpecSound.sound (S := XRScalar xp_default) degree fit_exact exact_engine.
Proof.
  split.
  - intros b r [<- | []] _ [<- | [<- | []]]; cbn [rl_weight rule_exact]; eexists; (split; [reflexivity|lra]).
  - intros b n [<- | []] _ E. discriminate E.
  - intros v t m [<- | []] _ [<- | []] E. destruct (proper_degree xp_default ltac:(cbn; lra) (engine_view (e_inputs exact_engine) (e_outputs exact_engine)) _ _ low_proper) as (m' & E' & D).
    cbn [v_value x_exact] in E. congruence.
  - intros b r ex j t o [<- | []] _ I E U. assert (ex = Prp (mkProp (VIn 0) [Any] (Some 0%nat))) as -> by (destruct I as [<- | [<- | []]]; cbn in E; congruence). inversion U; discriminate.
Qed.
Lemma y_values vw t y u : In t (v_terms (o_var y_exact)) -> term_membership vw t y = Ok u \/ term_tsukamoto t y = Ok u -> exists r, u = XFin r /\ 3 <= r <= 5.
Proof.
  intros [<- | [<- | []]] [E|E]; cbn in E; try discriminate; inversion E; subst; eexists; (split; [reflexivity|lra]).
Qed.
