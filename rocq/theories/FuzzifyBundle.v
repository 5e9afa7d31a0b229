(** The most activated term, and the fuzzy value of an output variable. *)
From Coq Require Import ZArith List Bool String Ascii Reals Lra Lia.
From Flocq Require Import IEEE754.BinarySingleNaN.
From Verif Require Import Base Op Norm Defuzz Aggregated Text Function Var Fuzzify XR F64 F64Facts OrdVal SpecDefuzz SpecAgg SpecFuzzify SpecFll TextProofs AggProofs AggProofs2 AggBundle FuzzifyProofs.
Import ListNotations.
Local Open Scope string_scope.

Section Any.
Context {T : Type} `{S : Scalar T}.

Section Highest.
Variable v : T -> xr.
Hypothesis ov : ord_val S v.
(** the first of the terms with the greatest positive membership; none if no membership is positive *)
Lemma maximal_terms vw (w : variable T) x l : v_activations vw w x = Ok l ->
  exists m, v_max_activations vw w x = Ok m /\
  ((m = [] /\ forall a, In a l -> xltb (XFin 0) (v (ac_degree a)) = false) \/
   (m <> [] /\ exists y, xmax_of (map (fun a => v (ac_degree a)) l) y /\ m = filter (fun a => xeqb (v (ac_degree a)) y) l)).
Proof.
  intros E. unfold v_max_activations. rewrite E. cbn [rbind]. eexists. split; [reflexivity|].
  destruct (max_main ov l) as [(M & _ & Z) | (m & a & r & X & M & F & _)]; rewrite M; [left; auto|right]. split; [discriminate|]. exists m. auto.
Qed.
Lemma highest vw (w : variable T) x : forall l, v_activations vw w x = Ok l ->
  (forall t y, highest_membership vw w x = Ok (t, y) ->
    match t with
    | None => y = s_nan /\ forall a, In a l -> xltb (XFin 0) (v (ac_degree a)) = false
    | Some i => nth_error l i = Some (mkActivated i y None) /\ xmax_of (map (fun a => v (ac_degree a)) l) (v y) /\
        forall j a, (j < i)%nat -> nth_error l j = Some a -> xeqb (v (ac_degree a)) (v y) = false
    end) /\ exists r, highest_membership vw w x = Ok r.
Proof.
  intros l E. unfold highest_membership. rewrite E. cbn [rbind].
  assert (forall i a, nth_error l i = Some a -> ac_term a = i /\ ac_implication a = None) as P.
  { apply activations in E. destruct E as [L N]. intros i a A. assert (nth_error (v_terms w) i <> None) as Q by (apply nth_error_Some; rewrite <- L; apply nth_error_Some; congruence).
    destruct (nth_error (v_terms w) i) as [t|] eqn:Et; [|congruence]. destruct (N i t Et) as (y & Y & _). rewrite Y in A. injection A as <-. auto. }
  destruct (max_main ov l) as [(M & _ & Z) | (m & a & r & X & M & F & _)]; rewrite M; (split; [|eauto]); intros t y Q; injection Q as <- <-.
  - split; [reflexivity|exact Z].
  - assert (exists i, nth_error l i = Some a /\ forall j b, (j < i)%nat -> nth_error l j = Some b -> xeqb (v (ac_degree b)) m = false) as (i & Ni & Fi).
    { clear - F. induction l as [|b l' IH]; [discriminate F|]. cbn [filter] in F. destruct (xeqb (v (ac_degree b)) m) eqn:Q.
      - injection F as <- _. exists 0%nat. split; [reflexivity|]. intros j c J. lia.
      - destruct (IH F) as (i & Ni & Fi). exists (Datatypes.S i). split; [exact Ni|]. intros [|j] c J C; cbn in C; [congruence|]. apply (Fi j c); [lia|exact C]. }
    destruct (P i a Ni) as [Pi Pg]. assert (v (ac_degree a) = m) as Vm.
    { assert (xeqb (v (ac_degree a)) m = true) as Q. { assert (In a (a :: r)) as I by now left. rewrite F in I. apply filter_In in I. exact (proj2 I). }
      destruct X as (_ & X & _). clear - Q X. destruct (v (ac_degree a)), m; cbn in Q, X; try discriminate; try reflexivity. unfold Reqb in Q. destruct (Req_EM_T _ _) as [->|]; [reflexivity|discriminate Q]. }
    rewrite Pi. rewrite Vm. split; [rewrite Ni; destruct a; cbn in *; subst; reflexivity|]. split; [exact X|exact Fi].
Qed.
End Highest.

(** ** output variables *)
Lemma firsts_in_all k l : In k (firsts l) <-> In k l.
Proof.
  split; [|apply firsts_in]. induction l as [|x l IH]; cbn [firsts In]; [auto|]. intros [H | H]; [auto|]. apply filter_In in H. right. apply IH, H.
Qed.
Lemma firsts_app_sub : forall (a b : list string), NoDup a -> (forall k, In k b -> In k a) -> firsts (a ++ b)%list = a.
Proof.
  induction a as [|x a IH]; intros b N I.
  - destruct b as [|y b]; [reflexivity|]. destruct (I y (or_introl eq_refl)).
  - inversion N as [|? ? X N']; subst. cbn [app firsts]. f_equal.
    assert (forall l, firsts (filter (fun k => negb (String.eqb x k)) l) = filter (fun k => negb (String.eqb x k)) (firsts l)) as C.
    { clear. assert (forall (p q : string -> bool) m, filter p (filter q m) = filter q (filter p m)) as FF.
      { intros p q m. induction m as [|u m IH]; [reflexivity|]. cbn. destruct (p u) eqn:P, (q u) eqn:Q; cbn; rewrite ?P, ?Q, ?IH; reflexivity. }
      induction l as [|y l IH]; [reflexivity|]. cbn [filter firsts]. destruct (String.eqb_spec x y) as [<-|Ne].
      - cbn [negb]. rewrite IH. assert (forall (p : string -> bool) m, filter p (filter p m) = filter p m) as II.
        { intros p m. induction m as [|u m IHm]; [reflexivity|]. cbn. destruct (p u) eqn:P; cbn; rewrite ?P, ?IHm; reflexivity. }
        now rewrite II.
      - cbn [negb firsts]. rewrite IH. f_equal. apply FF. }
    rewrite <- C. rewrite filter_app.
    assert (filter (fun k => negb (String.eqb x k)) a = a) as ->.
    { clear - X. induction a as [|y a IH]; [reflexivity|]. cbn in *. destruct (String.eqb_spec x y); [exfalso; auto|]. cbn. rewrite IH; auto. }
    apply IH; [exact N'|]. intros k K. apply filter_In in K. destruct K as [K1 K2]. destruct (I k K1) as [-> | ]; [|assumption]. rewrite String.eqb_refl in K2. discriminate K2.
Qed.
Lemma named_map {A} (nm : A -> string) k l : named nm k l = [] <-> ~ In k (map nm l).
Proof.
  unfold named. induction l as [|a l IH]; cbn; [tauto|]. destruct (String.eqb_spec k (nm a)) as [->|Ne]; [split; [discriminate|intros []; auto]|]. rewrite IH. split; [intros H [|]; auto|auto].
Qed.

Lemma named_once {A} (nm : A -> string) k h r l : NoDup (map nm l) -> named nm k l = h :: r -> r = [].
Proof.
  unfold named. induction l as [|a l IH]; intros ND E; [discriminate E|]. cbn [map] in ND. inversion ND as [|? ? X ND']; subst. cbn [filter] in E.
  destruct (String.eqb_spec k (nm a)) as [K|Ne]; [|now apply IH]. injection E as _ E. destruct r as [|h' r]; [reflexivity|]. exfalso.
  assert (In h' (filter (fun a0 => String.eqb k (nm a0)) l)) as J by (rewrite E; now left). apply filter_In in J. destruct J as [J1 J2]. apply String.eqb_eq in J2. apply X. rewrite <- K, J2. now apply in_map.
Qed.

Variable o : output T.
Let name := term_name_at (o_var o).
Let n := List.length (v_terms (o_var o)).
Let nm := fun a : activated T nat => name (ac_term a).
Hypothesis distinct : NoDup (map (@tm_name T) (v_terms (o_var o))).
Hypothesis ranged : Forall (fun a => (ac_term a < n)%nat) (o_fuzzy o).
Lemma names_seq : map name (seq 0 n) = map (@tm_name T) (v_terms (o_var o)).
Proof.
  unfold name, n, term_name_at. generalize (v_terms (o_var o)). clear. intro l. assert (forall k pre, List.length pre = k -> map (fun t => match nth_error (pre ++ l) t with Some tm => tm_name tm | None => "" end) (seq k (List.length l)) = map (@tm_name T) l) as H.
  { induction l as [|a l IH]; intros k pre L; [reflexivity|]. cbn [List.length seq map]. f_equal.
    - rewrite nth_error_app2 by lia. replace (k - List.length pre)%nat with 0%nat by lia. reflexivity.
    - specialize (IH (Datatypes.S k) (pre ++ [a])%list). rewrite <- app_assoc in IH. apply IH. rewrite app_length. cbn. lia. }
  apply (H 0%nat []). reflexivity.
Qed.
Lemma name_inj i j : (i < n)%nat -> (j < n)%nat -> name i = name j -> i = j.
Proof.
  intros I J E. pose proof distinct as D. rewrite <- names_seq in D.
  rewrite NoDup_nth_error in D. apply D; [rewrite map_length, seq_length; exact I|].
  rewrite !nth_error_map. assert (forall k, (k < n)%nat -> nth_error (seq 0 n) k = Some k) as Q.
  { intros k K. rewrite nth_error_nth' with (d := 0%nat) by (rewrite seq_length; exact K). now rewrite seq_nth. }
  rewrite !Q by assumption. cbn. now rewrite E.
Qed.
(** by name is by position *)
Lemma by_name t : (t < n)%nat -> map (@ac_degree T nat) (named nm (name t) (o_fuzzy o)) = degrees_of t (o_fuzzy o).
Proof.
  intro L. unfold degrees_of, named. f_equal. apply filter_ext_in. intros a I. rewrite Forall_forall in ranged. specialize (ranged a I).
  destruct (Nat.eqb_spec t (ac_term a)) as [->|Ne]; [apply String.eqb_refl|]. apply String.eqb_neq. intro E. apply Ne. now apply name_inj.
Qed.
Definition reported (t : nat) : T :=
  match degrees_of t (o_fuzzy o) with [] => s_0 | ds => (s_0 + together (o_aggregation o) ds)%S end.
Lemma output_groups : grouped_terms name None (map (fun i => mkActivated i s_0 None) (seq 0 n) ++ grouped_terms name (o_aggregation o) (o_fuzzy o))%list
  = map (fun i => mkActivated i (reported i) None) (seq 0 n).
Proof.
  set (zeros := map (fun i => mkActivated i s_0 None) (seq 0 n)). set (g := grouped_terms name (o_aggregation o) (o_fuzzy o)).
  destruct (grouped_main name (o_aggregation o) (o_fuzzy o)) as (Gn & Gd & _). fold g in Gn, Gd.
  destruct (grouped_main name None (zeros ++ g)%list) as (Rn & Rd & _).
  set (r := grouped_terms name None (zeros ++ g)%list) in *.
  fold nm in Gn, Gd, Rn, Rd.
  assert (map nm zeros = map name (seq 0 n)) as Zn by (unfold zeros; rewrite map_map; reflexivity).
  assert (map nm r = map name (seq 0 n)) as Rn'.
  { rewrite Rn, map_app, Zn. apply firsts_app_sub; [rewrite names_seq; exact distinct|]. intros k K. rewrite Gn in K. apply (proj1 (firsts_in_all _ _)) in K.
    apply in_map_iff in K. destruct K as (a & <- & I). apply (in_map name). apply in_seq. rewrite Forall_forall in ranged. specialize (ranged a I). lia. }
  assert (List.length r = n) as Lr by (rewrite <- (map_length nm), Rn', map_length, seq_length; reflexivity).
  assert (forall i, (i < n)%nat -> nth_error (seq 0 n) i = Some i) as Q.
  { intros k K. rewrite nth_error_nth' with (d := 0%nat) by (rewrite seq_length; exact K). now rewrite seq_nth. }
  assert (forall i a, nth_error r i = Some a -> a = mkActivated i (reported i) None) as EQ.
  { intros i a A. assert (i < n)%nat as I by (rewrite <- Lr; apply nth_error_Some; congruence).
    assert (nm a = name i) as Na. { apply (map_nth_error nm) in A. rewrite Rn', nth_error_map, Q in A by exact I. cbn in A. congruence. }
    destruct (Rd a (nth_error_In _ _ A)) as (h & rest & N & Et & Ei & Ed). change (name (ac_term a)) with (nm a) in N. rewrite Na in N. unfold named in N. rewrite filter_app in N.
    assert (filter (fun a => String.eqb (name i) (nm a)) zeros = [mkActivated i s_0 None]) as Z.
    { unfold zeros. assert (forall l, NoDup l -> In i l -> (forall j, In j l -> (j < n)%nat) -> filter (fun a => String.eqb (name i) (nm a)) (map (fun i => mkActivated i s_0 None) l) = [mkActivated i s_0 None]) as H.
      { induction l as [|j l IH]; intros ND IN LT; [destruct IN|]. inversion ND as [|? ? J ND']; subst. cbn [map filter]. unfold nm at 1. cbn [ac_term].
        destruct (String.eqb_spec (name i) (name j)) as [E|Ne].
        - apply name_inj in E; [|exact I|apply LT; now left]. subst j. f_equal.
          assert (forall l', (forall j, In j l' -> (j < n)%nat) -> ~ In i l' -> filter (fun a => String.eqb (name i) (nm a)) (map (fun i => mkActivated i s_0 None) l') = []) as H0.
          { induction l' as [|k l' IH']; intros LT' NI; [reflexivity|]. cbn [map filter]. unfold nm at 1. cbn [ac_term]. destruct (String.eqb_spec (name i) (name k)) as [E|_].
            - apply name_inj in E; [|exact I|apply LT'; now left]. subst. exfalso. apply NI. now left.
            - apply IH'; [intros; apply LT'; now right|intro; apply NI; now right]. }
          apply H0; [intros; apply LT; now right|exact J].
        - apply IH; [exact ND'| |intros; apply LT; now right]. destruct IN as [-> | IN]; [congruence|exact IN]. }
      apply H; [apply seq_NoDup|apply in_seq; lia|intros j J; apply in_seq in J; lia]. }
    rewrite Z in N. cbn [app] in N. injection N as Nh Nr. subst h. cbn [ac_term ac_implication ac_degree] in Et, Ei, Ed.
    destruct a as [t y im]. cbn [ac_term ac_implication ac_degree] in *. subst t im. f_equal. rewrite Ed. unfold reported. rewrite <- by_name by exact I.
    fold (named nm (name i) g) in Nr.
    destruct (named nm (name i) g) as [|h r'] eqn:Ng.
    - subst rest. cbn [map fold_left]. apply named_map in Ng. rewrite Gn in Ng. assert (named nm (name i) (o_fuzzy o) = []) as -> by (apply named_map; intro; apply Ng; now apply firsts_in_all). reflexivity.
    - assert (In h g /\ nm h = name i) as [Ih Nh].
      { assert (In h (named nm (name i) g)) as J by (rewrite Ng; now left). unfold named in J. apply filter_In in J. destruct J as [J1 J2]. apply String.eqb_eq in J2. auto. }
      assert (r' = []) as ->.
      { apply (named_once nm (name i) h r' g); [rewrite Gn; apply firsts_nodup|exact Ng]. }
      subst rest. cbn [map fold_left]. destruct (Gd h Ih) as (a0 & l0 & N0 & _ & _ & D0). change (name (ac_term h)) with (nm h) in N0. rewrite Nh in N0. rewrite N0. cbn [map together]. rewrite D0.
      destruct (o_aggregation o); reflexivity. }
  clear - EQ Lr Q. assert (forall k (l : list (activated T nat)), (forall i a, nth_error l i = Some a -> a = mkActivated (k + i) (reported (k + i)) None) -> l = map (fun i => mkActivated i (reported i) None) (seq k (List.length l))) as H.
  { intros k l. revert k. induction l as [|a l IH]; intros k E; [reflexivity|]. cbn [List.length seq map]. f_equal.
    - rewrite (E 0%nat a eq_refl). now rewrite Nat.add_0_r.
    - apply IH. intros i b B. replace (Datatypes.S k + i)%nat with (k + Datatypes.S i)%nat by lia. now apply (E (Datatypes.S i)). }
  rewrite (H 0%nat r EQ) at 1. rewrite Lr. reflexivity.
Qed.
Lemma output_text d : fuzzy_output_value d o = fuzzy_value d name (map (fun i => mkActivated i (reported i) None) (seq 0 n)).
Proof. unfold fuzzy_output_value. fold name n. now rewrite output_groups. Qed.
End Any.

(** ** a value as text *)
Section Text.
Context {T : Type} `{S : Scalar T}.
Variable v : T -> xr.
(** sign, size and name *)
Definition written (d : nat) (p : T * string) : addend := (xltb (v (fst p)) (XFin 0), str d (s_abs (fst p)), snd p).
Hypothesis ov : ord_val S v.
Lemma addend_written {A} d (name : A -> string) (l : list (activated T A)) :
  map (addend_of d name minus) l = map (written d) (map (fun a => (ac_degree a, name (ac_term a))) l).
Proof. rewrite map_map. apply map_ext. intro a. unfold addend_of, written. cbn [fst snd]. now rewrite (minus_negative v ov). Qed.
Lemma fuzzified vw d (w : variable T) x s : v_fuzzify vw d w x = Ok s ->
  exists ys, Forall2 (fun t y => takes_part vw t x y) (v_terms w) ys /\ s = sum_text (map (written d) (combine ys (map (@tm_name T) (v_terms w)))).
Proof.
  unfold v_fuzzify. destruct (v_activations vw w x) as [l| | |] eqn:E; try discriminate. cbn [rbind]. intro H. injection H as <-.
  apply activations in E. destruct E as [L N]. exists (map (@ac_degree T nat) l). split.
  - apply Forall2_nth. rewrite map_length. split; [congruence|]. intros i t y Ht Hy. destruct (N i t Ht) as (y' & Y & M). rewrite nth_error_map, Y in Hy. cbn in Hy. injection Hy as <-. exact M.
  - rewrite text, addend_written. f_equal. f_equal. unfold term_name_at. revert L N. generalize (v_terms w). intros ts L N.
    assert (forall i a t, nth_error l i = Some a -> nth_error ts i = Some t -> ac_term a = i) as P.
    { intros i a t A Ht. destruct (N i t Ht) as (y & Y & _). rewrite Y in A. injection A as <-. reflexivity. }
    clear N. assert (forall pre l' ts', List.length l' = List.length ts' -> (forall i a t, nth_error l' i = Some a -> nth_error ts' i = Some t -> ac_term a = (List.length pre + i)%nat) ->
      map (fun a => (ac_degree a, match nth_error (pre ++ ts') (ac_term a) with Some tm => tm_name tm | None => "" end)) l' = combine (map (@ac_degree T nat) l') (map (@tm_name T) ts')) as H.
    { intros pre l'. revert pre. induction l' as [|a l' IH]; intros pre [|t ts'] L' P'; try discriminate L'; [reflexivity|]. cbn [map combine]. f_equal.
      - rewrite (P' 0%nat a t eq_refl eq_refl), Nat.add_0_r, nth_error_app2, Nat.sub_diag by lia. reflexivity.
      - specialize (IH (pre ++ [t])%list ts'). rewrite <- app_assoc in IH. apply IH; [cbn in L'; congruence|]. intros i b u B U. rewrite app_length. cbn. rewrite (P' (Datatypes.S i) b u B U). lia. }
    apply (H [] l ts L P).
Qed.
Hypothesis abs_pos : forall x : T, s_ltb (s_abs x) s_0 = false.
Lemma told_apart d (l l' : list (T * string)) : Forall (fun p => lacks " " (snd p) = true) l -> Forall (fun p => lacks " " (snd p) = true) l' ->
  sum_text (map (written d) l) = sum_text (map (written d) l') -> map (written d) l = map (written d) l'.
Proof.
  intros F F'. apply sum_read; apply Forall_forall; intros x I; apply in_map_iff in I; destruct I as ([y k] & <- & I);
    [rewrite Forall_forall in F; specialize (F _ I)|rewrite Forall_forall in F'; specialize (F' _ I)];
    (split; [apply FisRule.str_numeral|split; [|assumption]]); cbn [fst snd]; intros r E; pose proof (str_unsigned d _ (abs_pos y)) as U; cbn [written fst snd] in E; rewrite E in U; discriminate U.
Qed.
Hypothesis plus0 : forall x : T, s_abs (s_0 + x)%S = s_abs x /\ xltb (v (s_0 + x)%S) (XFin 0) = xltb (v x) (XFin 0).
Lemma output_written d (o : output T) : NoDup (map (@tm_name T) (v_terms (o_var o))) -> Forall (fun a => (ac_term a < List.length (v_terms (o_var o)))%nat) (o_fuzzy o) ->
  fuzzy_output_value d o = sum_text (map (written d) (combine (map (fun t => together (o_aggregation o) (degrees_of t (o_fuzzy o))) (seq 0 (List.length (v_terms (o_var o))))) (map (@tm_name T) (v_terms (o_var o))))).
Proof.
  intros D R. rewrite (output_text o D R), text, addend_written. f_equal. rewrite map_map. cbn [ac_degree ac_term]. rewrite <- (names_seq o).
  generalize (seq 0 (List.length (v_terms (o_var o)))). induction l as [|t l IH]; [reflexivity|]. cbn [map combine]. f_equal; [|exact IH].
  unfold written, reported, together. cbn [fst snd ac_degree ac_term]. destruct (degrees_of t (o_fuzzy o)) as [|y ys]; [reflexivity|]. destruct (plus0 (fold_left (match o_aggregation o with Some s => snorm_compute s | None => s_add end) ys y)) as [-> ->]. reflexivity.
Qed.
End Text.
Arguments written {T S} v d p.

(** ** the scalars *)
Lemma abs_pos_XR P (x : xr) : @s_ltb xr (XRScalar P) (@s_abs xr (XRScalar P) x) (@s_0 xr (XRScalar P)) = false.
Proof.
  rewrite (ov_lt _ _ (ord_val_XR P)), (ov_0 _ _ (ord_val_XR P)). destruct x; cbn; try reflexivity. unfold Rltb. destruct (Rlt_dec (Rabs r) 0) as [H|]; [|reflexivity]. pose proof (Rabs_pos r). lra.
Qed.
Lemma plus0_XR P (x : xr) : @s_abs xr (XRScalar P) (@s_add xr (XRScalar P) (@s_0 xr (XRScalar P)) x) = @s_abs xr (XRScalar P) x /\
  xltb (@s_add xr (XRScalar P) (@s_0 xr (XRScalar P)) x) (XFin 0) = xltb x (XFin 0).
Proof.
  assert (@s_add xr (XRScalar P) (@s_0 xr (XRScalar P)) x = x) as ->; [|auto]. rewrite (ov_0 _ _ (ord_val_XR P)). destruct x; cbn; try reflexivity. f_equal. lra.
Qed.
Lemma zero_F64 P : @s_0 f64 (F64Scalar P) = B754_zero false.
Proof. apply B2SF_inj. vm_compute. reflexivity. Qed.
Lemma abs_pos_F64 P (x : f64) : @s_ltb f64 (F64Scalar P) (@s_abs f64 (F64Scalar P) x) (@s_0 f64 (F64Scalar P)) = false.
Proof.
  rewrite (ov_lt _ _ (ord_val_F64 P)), (ov_0 _ _ (ord_val_F64 P)). change (@s_abs f64 (F64Scalar P) x) with (Babs x : f64).
  destruct (is_finite x) eqn:F; [|destruct x; try discriminate F; reflexivity].
  rewrite f2x_finite by (rewrite is_finite_Babs; exact F). rewrite B2R_Babs. cbn [xltb]. unfold Rltb.
  destruct (Rlt_dec _ 0) as [H|]; [|reflexivity]. pose proof (Rabs_pos (B2R x)). lra.
Qed.
Lemma plus0_F64 P (x : f64) : @s_abs f64 (F64Scalar P) (@s_add f64 (F64Scalar P) (@s_0 f64 (F64Scalar P)) x) = @s_abs f64 (F64Scalar P) x /\
  xltb (f2x (@s_add f64 (F64Scalar P) (@s_0 f64 (F64Scalar P)) x)) (XFin 0) = xltb (f2x x) (XFin 0).
Proof. rewrite zero_F64. destruct x as [[]|[]| |s m e b]; split; reflexivity. Qed.
