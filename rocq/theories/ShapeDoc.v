(** The code of each shape term computes the documented function away from the tolerance bands. *)
From Coq Require Import ZArith Reals Bool List Lra Psatz.
From Verif Require Import Base Op XR XRFacts Shape SpecTerm ShapeFacts.
Local Open Scope R_scope.

Section D.
Context (P : xparam).
#[local] Hint Extern 0 (Scalar xr) => exact (XRScalar P) : typeclass_instances.
Notation eps := (xp_eps P).
Context (E0 : 0 <= xp_eps P).
Notation fm := (fm P).

Ltac start := intros; unfold ShapeFacts.fm, sh_membership, shape_map, doc_membership, breakpoints, well_ordered, oriented in *;
  rewrite ?xe_isNaN; offs.
Ltac fin := first [ lra | f_equal; unfold sq; field; lra | f_equal; unfold sq; field; nra ].
Ltac go := repeat (xcmp P; try lra; xe P); xe P; try fin.

Lemma div_abs a b : b <> 0 -> Rabs (a / b) = Rabs a / Rabs b.
Proof. intro. unfold Rdiv. rewrite Rabs_mult, Rabs_inv; auto. Qed.

Lemma doc_bell c w s h x : well_ordered (Bell c w s) -> fm (Bell c w s) h x = XFin (doc_membership (Bell c w s) h x).
Proof.
  start. xe P. simpl.
  destruct (Req_EM_T x c) as [->|N].
  - replace ((c - c) / w) with 0 by (field; auto). rewrite Rabs_R0.
    destruct (Rlt_dec 0 s); [|destruct (Req_EM_T s 0)].
    + rewrite Reqb_false, Rltb_false, Reqb_refl, Rltb_true by lra. simpl.
      destruct Req_EM_T; [lra|]. f_equal. field.
    + rewrite Reqb_true by lra. simpl. destruct Req_EM_T; [lra|]. f_equal. field.
    + rewrite Reqb_false, Rltb_false, Reqb_refl, Rltb_false by lra. simpl. f_equal. ring.
  - assert (0 < Rabs ((x - c) / w)).
    { apply Rabs_pos_lt. unfold Rdiv. apply Rmult_integral_contrapositive_currified; [lra|]. now apply Rinv_neq_0_compat. }
    rewrite <- div_abs by auto.
    destruct (Reqb_spec (2 * s) 0) as [E|E].
    + rewrite E, Rpower_O by lra. simpl. destruct Req_EM_T; [lra|]. f_equal. field.
    + rewrite Rltb_true by auto. simpl. assert (0 < Rpower (Rabs ((x - c) / w)) (2 * s)) by apply exp_pos.
      destruct Req_EM_T; [lra|]. f_equal. field. lra.
Qed.
Lemma doc_binary s d h x : Forall (fun v => off eps v x) (breakpoints (Binary s d)) ->
  fm (Binary s d) h x = XFin (doc_membership (Binary s d) h x).
Proof. start; go. Qed.
Lemma doc_concave i e h x : Forall (fun v => off eps v x) (breakpoints (Concave i e)) -> oriented eps (Concave i e) ->
  fm (Concave i e) h x = XFin (doc_membership (Concave i e) h x).
Proof. start; go. Qed.
Lemma doc_cosine c w h x : well_ordered (Cosine c w) -> Forall (fun v => off eps v x) (breakpoints (Cosine c w)) ->
  fm (Cosine c w) h x = XFin (doc_membership (Cosine c w) h x).
Proof. start; xe P; go; f_equal; replace (1/2*w) with (w/2) in * by lra; lra. Qed.
Lemma bell_rw m sd x : sd <> 0 -> exp (- (x - m) * (x - m) / (2 * sd * sd)) = bell_curve m sd x.
Proof. intro. unfold bell_curve, sq. f_equal. field. auto. Qed.
Lemma bell_center m sd : bell_curve m sd m = 1.
Proof. unfold bell_curve, sq. replace (- ((m - m) * (m - m)) / (2 * (sd * sd))) with 0; [apply exp_0|]. unfold Rdiv. ring. Qed.
Lemma sq_pos a : a <> 0 -> 2 * a * a <> 0.
Proof. intro. nra. Qed.
Lemma doc_gaussian m sd h x : well_ordered (Gaussian m sd) -> fm (Gaussian m sd) h x = XFin (doc_membership (Gaussian m sd) h x).
Proof. start. pose proof (sq_pos sd H). xe P. now rewrite bell_rw. Qed.
Lemma doc_gaussianproduct ma sa mb sb h x : well_ordered (GaussianProduct ma sa mb sb) ->
  Forall (fun v => off eps v x) (breakpoints (GaussianProduct ma sa mb sb)) ->
  fm (GaussianProduct ma sa mb sb) h x = XFin (doc_membership (GaussianProduct ma sa mb sb) h x).
Proof.
  start; destruct H; pose proof (sq_pos sa H); pose proof (sq_pos sb H3); xe P; rewrite !bell_rw by auto;
  repeat (xcmp P; try lra); xe P; repeat f_equal; auto;
   try (replace ma with x by lra); try (replace mb with x by lra); rewrite ?bell_center; reflexivity.
Qed.
Lemma doc_pishape bl tl tr br h x : well_ordered (PiShape bl tl tr br) ->
  Forall (fun v => off eps v x) (breakpoints (PiShape bl tl tr br)) ->
  fm (PiShape bl tl tr br) h x = XFin (doc_membership (PiShape bl tl tr br) h x).
Proof.
  intros W B. unfold ShapeFacts.fm, sh_membership, shape_map, doc_membership, breakpoints, well_ordered, oriented in *.
  rewrite xe_isNaN. xe P.
  replace (1/2*(bl+tl)) with ((bl+tl)/2) by lra. replace (1/2*(tr+br)) with ((tr+br)/2) by lra.
  offs; repeat (xcmp P; try lra); xe P; fin.
Qed.
Lemma doc_ramp s e h x : well_ordered (Ramp s e) -> oriented eps (Ramp s e) ->
  Forall (fun v => off eps v x) (breakpoints (Ramp s e)) ->
  fm (Ramp s e) h x = XFin (doc_membership (Ramp s e) h x).
Proof.
  start; destruct (isEq_spec P s e) as [C|C]; unfold Rabs in C; repeat destruct Rcase_abs; try lra; go.
Qed.
Lemma doc_rectangle s e h x : Forall (fun v => off eps v x) (breakpoints (Rectangle s e)) ->
  fm (Rectangle s e) h x = XFin (doc_membership (Rectangle s e) h x).
Proof. start; go. Qed.
Lemma doc_sshape s e h x : well_ordered (SShape s e) -> Forall (fun v => off eps v x) (breakpoints (SShape s e)) ->
  fm (SShape s e) h x = XFin (doc_membership (SShape s e) h x).
Proof. start; xe P; replace (1/2*(s+e)) with ((s+e)/2) in * by lra; go. Qed.
Lemma doc_zshape s e h x : well_ordered (ZShape s e) -> Forall (fun v => off eps v x) (breakpoints (ZShape s e)) ->
  fm (ZShape s e) h x = XFin (doc_membership (ZShape s e) h x).
Proof. start; xe P; replace (1/2*(s+e)) with ((s+e)/2) in * by lra; go. Qed.
Lemma logit_pos z : 1 + exp z <> 0.
Proof. pose proof (exp_pos z). lra. Qed.
Lemma doc_sigmoid i s h x : fm (Sigmoid i s) h x = XFin (doc_membership (Sigmoid i s) h x).
Proof. start. pose proof (logit_pos (- s * (x - i))). xe P. unfold logistic. f_equal. field. auto. Qed.
Lemma doc_sigdiff il sl sr ir h x : fm (SigmoidDifference il sl sr ir) h x = XFin (doc_membership (SigmoidDifference il sl sr ir) h x).
Proof.
  start. pose proof (logit_pos (- sl * (x - il))). pose proof (logit_pos (- sr * (x - ir))). xe P. unfold logistic.
  do 3 f_equal. field; auto.
Qed.
Lemma doc_sigprod il sl sr ir h x : fm (SigmoidProduct il sl sr ir) h x = XFin (doc_membership (SigmoidProduct il sl sr ir) h x).
Proof.
  start. pose proof (logit_pos (- sl * (x - il))). pose proof (logit_pos (- sr * (x - ir))).
  assert ((1 + exp (- sl * (x - il))) * (1 + exp (- sr * (x - ir))) <> 0) by (apply Rmult_integral_contrapositive_currified; auto).
  xe P. unfold logistic. f_equal. field; auto.
Qed.
Lemma doc_spike c w h x : well_ordered (Spike c w) -> fm (Spike c w) h x = XFin (doc_membership (Spike c w) h x).
Proof. start. xe P. reflexivity. Qed.
Lemma doc_trapezoid a b c d h x : well_ordered (Trapezoid a b c d) ->
  Forall (fun v => off eps v x) (breakpoints (Trapezoid a b c d)) ->
  fm (Trapezoid a b c d) h x = XFin (doc_membership (Trapezoid a b c d) h x).
Proof.
  start; xe P; repeat (xcmp P; try lra); xe P; try fin.
Qed.
Lemma doc_triangle a b c h x : well_ordered (Triangle a b c) ->
  Forall (fun v => off eps v x) (breakpoints (Triangle a b c)) ->
  fm (Triangle a b c) h x = XFin (doc_membership (Triangle a b c) h x).
Proof.
  start; xe P;
  (destruct (isEq_spec P x b) as [C|C]; unfold Rabs in C; repeat destruct Rcase_abs; try lra);
  repeat (xcmp P; try lra); xe P; try fin.
Qed.

Lemma doc_main s h x : well_ordered s -> oriented eps s -> Forall (fun v => off eps v x) (breakpoints s) ->
  fm s h x = XFin (doc_membership s h x).
Proof.
  intros; destruct s; auto using doc_bell, doc_binary, doc_concave, doc_cosine, doc_gaussian, doc_gaussianproduct,
    doc_pishape, doc_ramp, doc_rectangle, doc_sshape, doc_zshape, doc_sigmoid, doc_sigdiff, doc_sigprod, doc_spike,
    doc_trapezoid, doc_triangle.
Qed.
End D.
