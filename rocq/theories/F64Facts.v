(** Basic facts on binary64: order through the extended reals, symmetry of subtraction. *)
From Coq Require Import ZArith Reals Bool Lra Psatz.
From Flocq Require Import Core BinarySingleNaN.
From Verif Require Import Base Op XR XRFacts F64.
Local Open Scope R_scope.

(** value of a float as an extended real *)
Definition f2x (x : f64) : xr :=
  match x with
  | B754_nan => XNaN
  | B754_infinity false => XPInf
  | B754_infinity true => XNInf
  | _ => XFin (B2R x)
  end.

Lemma f2x_finite x : is_finite x = true -> f2x x = XFin (B2R x).
Proof. destruct x as [s|[|]| |s m e H]; simpl; auto; discriminate. Qed.

Lemma Rlt_bool_Rltb a b : Rlt_bool a b = Rltb a b.
Proof. destruct (Rlt_bool_spec a b), (Rltb_spec a b); auto; lra. Qed.
Lemma Rle_bool_Rleb a b : Rle_bool a b = Rleb a b.
Proof. destruct (Rle_bool_spec a b), (Rleb_spec a b); auto; lra. Qed.
Lemma Req_bool_Reqb a b : Req_bool a b = Reqb a b.
Proof. destruct (Req_bool_spec a b), (Reqb_spec a b); auto; lra. Qed.

Lemma f_ltb a b : Bltb a b = xltb (f2x a) (f2x b).
Proof.
  destruct (is_finite a) eqn:Fa, (is_finite b) eqn:Fb.
  - rewrite Bltb_correct by auto. rewrite !f2x_finite by auto. simpl. apply Rlt_bool_Rltb.
  - destruct a as [s|[|]| |[|] m e H], b as [s'|[|]| |[|] m' e' H']; simpl in *; try discriminate; auto.
  - destruct a as [s|[|]| |[|] m e H], b as [s'|[|]| |[|] m' e' H']; simpl in *; try discriminate; auto.
  - destruct a as [s|[|]| |[|] m e H], b as [s'|[|]| |[|] m' e' H']; simpl in *; try discriminate; auto.
Qed.
Lemma f_leb a b : Bleb a b = xleb (f2x a) (f2x b).
Proof.
  destruct (is_finite a) eqn:Fa, (is_finite b) eqn:Fb.
  - rewrite Bleb_correct by auto. rewrite !f2x_finite by auto. simpl. apply Rle_bool_Rleb.
  - destruct a as [s|[|]| |[|] m e H], b as [s'|[|]| |[|] m' e' H']; simpl in *; try discriminate; auto.
  - destruct a as [s|[|]| |[|] m e H], b as [s'|[|]| |[|] m' e' H']; simpl in *; try discriminate; auto.
  - destruct a as [s|[|]| |[|] m e H], b as [s'|[|]| |[|] m' e' H']; simpl in *; try discriminate; auto.
Qed.
Lemma f_eqb a b : Beqb a b = xeqb (f2x a) (f2x b).
Proof.
  destruct (is_finite a) eqn:Fa, (is_finite b) eqn:Fb.
  - rewrite Beqb_correct by auto. rewrite !f2x_finite by auto. simpl. apply Req_bool_Reqb.
  - destruct a as [s|[|]| |[|] m e H], b as [s'|[|]| |[|] m' e' H']; simpl in *; try discriminate; auto.
  - destruct a as [s|[|]| |[|] m e H], b as [s'|[|]| |[|] m' e' H']; simpl in *; try discriminate; auto.
  - destruct a as [s|[|]| |[|] m e H], b as [s'|[|]| |[|] m' e' H']; simpl in *; try discriminate; auto.
Qed.

Lemma f2x_nan x : f2x x = XNaN -> x = B754_nan.
Proof. destruct x as [s|[|]| |s m e H]; simpl; auto; discriminate. Qed.
Lemma is_nan_f2x x : is_nan x = match f2x x with XNaN => true | _ => false end.
Proof. destruct x as [s|[|]| |s m e H]; auto. Qed.

Lemma xltb_irrefl x : xltb x x = false.
Proof. destruct x; simpl; auto. apply Rltb_false; lra. Qed.
Lemma xltb_asym x y : xltb x y = true -> xltb y x = false.
Proof. destruct x, y; simpl; auto; try discriminate. destruct (Rltb_spec r r0); try discriminate. intros; apply Rltb_false; lra. Qed.
Lemma xeqb_sym x y : xeqb x y = xeqb y x.
Proof. destruct x, y; simpl; auto. destruct (Reqb_spec r r0), (Reqb_spec r0 r); auto; subst; contradiction. Qed.
Lemma xtrich x y : x <> XNaN -> y <> XNaN -> xltb x y = true \/ xeqb x y = true \/ xltb y x = true.
Proof.
  destruct x, y; simpl; auto; try contradiction. intros _ _.
  destruct (Rtotal_order r r0) as [H|[H|H]].
  - left; now apply Rltb_true.
  - right; left; now apply Reqb_true.
  - right; right; now apply Rltb_true.
Qed.

(** |a - b| = |b - a| also in rounded arithmetic *)
Lemma Babs_ext (x y : f64) : is_nan x = is_nan y -> is_finite x = is_finite y -> Rabs (B2R x) = Rabs (B2R y) ->
  Babs x = Babs y.
Proof.
  intros Hn Hf HR. destruct (is_finite x) eqn:Fx.
  - apply B2R_Bsign_inj; rewrite ?is_finite_Babs, ?B2R_Babs; auto.
    destruct x, y; simpl in *; auto; discriminate.
  - destruct x, y; simpl in *; try discriminate; auto.
Qed.

Lemma round_NE_minus_sym x y :
  round radix2 (SpecFloat.fexp prec64 emax64) ZnearestE (y - x) = - round radix2 (SpecFloat.fexp prec64 emax64) ZnearestE (x - y).
Proof. replace (y - x) with (- (x - y)) by ring. apply round_NE_opp. Qed.

Lemma Bminus_abs_sym (a b : f64) : Babs (Bminus mode_NE a b) = Babs (Bminus mode_NE b a).
Proof.
  destruct (is_finite a) eqn:Fa, (is_finite b) eqn:Fb.
  - pose proof (Bminus_correct prec64 emax64 _ _ mode_NE a b Fa Fb) as H1.
    pose proof (Bminus_correct prec64 emax64 _ _ mode_NE b a Fb Fa) as H2.
    simpl round_mode in *.
    rewrite (round_NE_minus_sym (B2R a) (B2R b)), Rabs_Ropp in H2.
    set (r := round radix2 (SpecFloat.fexp prec64 emax64) ZnearestE (B2R a - B2R b)) in *.
    destruct (Rlt_bool (Rabs r) (bpow radix2 emax64)).
    + destruct H1 as (R1 & F1 & _), H2 as (R2 & F2 & _). apply Babs_ext.
      * destruct (Bminus mode_NE a b), (Bminus mode_NE b a); simpl in *; try discriminate; auto.
      * congruence.
      * rewrite R1, R2. now rewrite Rabs_Ropp.
    + destruct H1 as (O1 & _), H2 as (O2 & _). apply Babs_ext.
      * rewrite <- !is_nan_SF_B2SF, O1, O2. reflexivity.
      * rewrite <- !is_finite_SF_B2SF, O1, O2. reflexivity.
      * rewrite <- !SF2R_B2SF, O1, O2. destruct (Bsign a), (Bsign b); reflexivity.
  - destruct a as [s|[|]| |[|] m e H], b as [s'|[|]| |[|] m' e' H']; simpl in *; try discriminate; auto.
  - destruct a as [s|[|]| |[|] m e H], b as [s'|[|]| |[|] m' e' H']; simpl in *; try discriminate; auto.
  - destruct a as [s|[|]| |[|] m e H], b as [s'|[|]| |[|] m' e' H']; simpl in *; try discriminate; auto.
Qed.
