(** The maximum-based defuzzifiers select what SpecDefuzz says, for every scalar ordered by a value. *)
From Coq Require Import ZArith Reals Bool List Lra Lia.
From Verif Require Import Base Op XR XRFacts Defuzz OrdVal SpecDefuzz.
Import ListNotations.
Local Open Scope R_scope.

Section Loop.
Lemma rfold_map {A B C} (g : B -> res C) (f : A -> B -> C -> A) l a :
  rfold (fun acc i => do y <- g i; Ok (f acc i y)) a l =
  (do ys <- rmapM g l; Ok (fold_left (fun acc p => f acc (fst p) (snd p)) (combine l ys) a)).
Proof.
  revert a; induction l as [|i l IH]; intro a; simpl; auto.
  destruct (g i); cbn [rbind]; auto. rewrite IH. destruct (rmapM g l); reflexivity.
Qed.
Lemma rmapM_map {A B C} (h : A -> B) (g : B -> res C) l : rmapM (fun i => g (h i)) l = rmapM g (map h l).
Proof. induction l; simpl; auto. rewrite IHl. reflexivity. Qed.
Lemma combine_map_l {A B C} (h : A -> B) l (ys : list C) :
  combine (map h l) ys = map (fun p => (h (fst p), snd p)) (combine l ys).
Proof. revert ys; induction l; intros [|y ys]; simpl; auto. now rewrite IHl. Qed.
Lemma fold_left_map {A B C} (h : B -> C) (f : A -> C -> A) l a :
  fold_left f (map h l) a = fold_left (fun acc x => f acc (h x)) l a.
Proof. revert a; induction l; simpl; auto. Qed.
Lemma rmapM_length {A B} (g : A -> res B) l ys : rmapM g l = Ok ys -> length ys = length l.
Proof.
  revert ys; induction l; simpl; intros ys E. { now inversion E. }
  destruct (g a); try discriminate. cbn [rbind] in E. destruct (rmapM g l) eqn:R; try discriminate.
  cbn [rbind] in E. inversion E; subst; simpl. f_equal. now apply IHl.
Qed.
Lemma rmapM_nth {A B} (g : A -> res B) l ys i x : rmapM g l = Ok ys -> nth_error l i = Some x ->
  exists y, nth_error ys i = Some y /\ g x = Ok y.
Proof.
  revert ys i; induction l; simpl; intros ys i E N. { destruct i; discriminate. }
  destruct (g a) eqn:G; try discriminate. cbn [rbind] in E. destruct (rmapM g l) eqn:R; try discriminate.
  cbn [rbind] in E. inversion E; subst; simpl. destruct i; simpl in *.
  - inversion N; subst. eauto.
  - eapply IHl; eauto.
Qed.
Lemma combine_nth_error {A B} (l : list A) (m : list B) i p : nth_error (combine l m) i = Some p <->
  nth_error l i = Some (fst p) /\ nth_error m i = Some (snd p).
Proof.
  revert m i; induction l; intros [|y m] [|i]; simpl; try (split; [discriminate|intros [? ?]; discriminate]).
  - destruct p; simpl. split; [intro H; inversion H; auto|]. intros [H1 H2]; congruence.
  - apply IHl.
Qed.
Lemma nth_error_snoc {A} (l : list A) a j x : nth_error (l ++ [a]) j = Some x <->
  nth_error l j = Some x \/ (j = length l /\ x = a).
Proof.
  revert j; induction l; intros [|j]; simpl; split; intro H.
  - right; inversion H; auto. - destruct H as [H|[_ ->]]; [discriminate|auto].
  - destruct j; discriminate. - destruct H as [H|[H _]]; [destruct j; discriminate|lia].
  - auto. - destruct H as [H|[H _]]; [auto|discriminate].
  - apply IHl in H. destruct H as [H|[H ->]]; auto.
  - apply IHl. destruct H as [H|[H ->]]; auto.
Qed.
End Loop.

Section Select.
Context {T : Type} {S : Scalar T} {v : T -> xr} (O : ord_val S v).

(** the loops without exceptions, over (x, y) pairs *)
Definition som_pure (acc : T * T) (p : T * T) : T * T := if s_ltb (fst acc) (snd p) then (snd p, fst p) else acc.
Definition lom_pure (acc : T * T) (p : T * T) : T * T := if s_leb (fst acc) (snd p) then (snd p, fst p) else acc.
Definition mom_pure (acc : T * list T) (p : T * T) : T * list T :=
  if s_ltb (fst acc) (snd p) then (snd p, [fst p]) else
  if s_eqb (snd p) (fst acc) then (fst acc, snd acc ++ [fst p]) else acc.

Definition vys (L : list (T * T)) : list xr := map (fun p => v (snd p)) L.
Lemma vys_nth L j y : nth_error (vys L) j = Some y <-> exists p, nth_error L j = Some p /\ y = v (snd p).
Proof.
  unfold vys. rewrite nth_error_map. destruct (nth_error L j); simpl; split.
  - intro H; inversion H; eauto. - intros (p0 & H & ->); inversion H; auto.
  - discriminate. - intros (p0 & H & _); discriminate.
Qed.
Lemma vys_snoc L p : vys (L ++ [p]) = vys L ++ [v (snd p)].
Proof. unfold vys. now rewrite map_app. Qed.

Definition no_number (ys : list xr) := forall j y, nth_error ys j = Some y -> y = XNaN.
Definition no_finite (ys : list xr) := forall j y, nth_error ys j = Some y -> y = XNaN \/ y = XNInf.

(** with i a strict first maximum *)
Definition first_at (ys : list xr) i y := nth_error ys i = Some y /\ xnum y /\
  (forall j y', nth_error ys j = Some y' -> xnum y' -> xleb y' y = true) /\
  (forall j y', (j < i)%nat -> nth_error ys j = Some y' -> xnum y' -> xltb y' y = true).
Definition last_at (ys : list xr) i y := nth_error ys i = Some y /\ xnum y /\
  (forall j y', nth_error ys j = Some y' -> xnum y' -> xleb y' y = true) /\
  (forall j y', (i < j)%nat -> nth_error ys j = Some y' -> xnum y' -> xltb y' y = true).

Lemma first_at_spec ys i y : first_at ys i y -> is_first_max ys i.
Proof.
  intros (N & U & M & F). split. { exists y; repeat split; auto. }
  intros j J (y' & N' & U' & M'). assert (L := F j y' J N' U'). assert (M2 := M' i y N U).
  assert (C := xle_ltb_trans _ _ _ M2 L). rewrite F64Facts.xltb_irrefl in C; discriminate.
Qed.
Lemma last_at_spec ys i y : last_at ys i y -> is_last_max ys i.
Proof.
  intros (N & U & M & F). split. { exists y; repeat split; auto. }
  intros j J (y' & N' & U' & M'). assert (L := F j y' J N' U'). assert (M2 := M' i y N U).
  assert (C := xle_ltb_trans _ _ _ M2 L). rewrite F64Facts.xltb_irrefl in C; discriminate.
Qed.

Lemma som_inv L : let r := fold_left som_pure L (s_neg s_inf, s_nan) in
  (r = (s_neg s_inf, s_nan) /\ no_finite (vys L)) \/
  (exists i, nth_error L i = Some (snd r, fst r) /\ first_at (vys L) i (v (fst r)) /\ v (fst r) <> XNInf).
Proof.
  induction L as [|p L IH] using rev_ind; simpl.
  - left. split; auto. intros [|j] y H; discriminate.
  - rewrite fold_left_app. simpl. set (r := fold_left som_pure L (s_neg s_inf, s_nan)) in *.
    rewrite vys_snoc. unfold som_pure. rewrite (ov_lt _ _ O).
    destruct (xltb (v (fst r)) (v (snd p))) eqn:LT.
    + right. exists (length L). simpl. rewrite nth_error_app2, Nat.sub_diag by lia. split; [destruct p; reflexivity|].
      destruct (xltb_num _ _ LT) as [N1 N2].
      assert (ALL : forall j y', nth_error (vys L) j = Some y' -> xnum y' -> xltb y' (v (snd p)) = true).
      { intros j y' N' U'. destruct IH as [[E NF]|(i & _ & (_ & _ & M & _) & _)].
        - destruct (NF _ _ N') as [-> | ->]; [now contradict U'|]. rewrite E in LT. simpl in LT. now rewrite (ov_ninf _ _ O) in LT.
        - eapply xle_ltb_trans; eauto. }
      split; [split; [|split; [|split]]|]; auto.
      * replace (length L) with (length (vys L)) by apply map_length. now rewrite nth_error_app2, Nat.sub_diag by lia.
      * intros j y' N' U'. apply nth_error_snoc in N'. destruct N' as [N'|[_ ->]]; [apply xltb_le; eauto|now apply xleb_refl].
      * intros j y' J N' U'. apply nth_error_snoc in N'. unfold vys in N' at 2. rewrite map_length in N'. destruct N' as [N'|[-> _]]; [eauto|lia].
      * intro E. rewrite E in LT. destruct (v (fst r)); discriminate.
    + destruct IH as [[E NF]|(i & N & (N1 & U & M & F) & NI)].
      * left. split; auto. intros j y N. apply nth_error_snoc in N. destruct N as [N|[_ ->]]; eauto.
        rewrite E in LT. simpl in LT. rewrite (ov_ninf _ _ O) in LT. destruct (v (snd p)); simpl in LT; auto; discriminate.
      * right. exists i. assert (I : (i < length L)%nat) by (apply nth_error_Some; congruence).
        split; [now rewrite nth_error_app1|]. split; [|auto]. split; [|split; [auto|split]].
        { rewrite nth_error_app1; auto. unfold vys; now rewrite map_length. }
        { intros j y' N' U'. apply nth_error_snoc in N'. destruct N' as [N'|[_ ->]]; [eauto|]. now apply xltb_false. }
        { intros j y' J N' U'. apply nth_error_snoc in N'. destruct N' as [N'|[-> _]]; [eauto|]. unfold vys in J. rewrite map_length in J. lia. }
Qed.

Lemma lom_inv L : let r := fold_left lom_pure L (s_neg s_inf, s_nan) in
  (r = (s_neg s_inf, s_nan) /\ no_number (vys L)) \/
  (exists i, nth_error L i = Some (snd r, fst r) /\ last_at (vys L) i (v (fst r))).
Proof.
  induction L as [|p L IH] using rev_ind; simpl.
  - left. split; auto. intros [|j] y H; discriminate.
  - rewrite fold_left_app. simpl. set (r := fold_left lom_pure L (s_neg s_inf, s_nan)) in *.
    rewrite vys_snoc. unfold lom_pure. rewrite (ov_le _ _ O).
    destruct (xleb (v (fst r)) (v (snd p))) eqn:LE.
    + right. exists (length L). simpl. rewrite nth_error_app2, Nat.sub_diag by lia. split; [destruct p; reflexivity|].
      destruct (xleb_num _ _ LE) as [N1 N2].
      split; [|split; [|split]]; auto.
      * replace (length L) with (length (vys L)) by apply map_length. now rewrite nth_error_app2, Nat.sub_diag by lia.
      * intros j y' N' U'. apply nth_error_snoc in N'. destruct N' as [N'|[_ ->]]; [|now apply xleb_refl].
        destruct IH as [[E NF]|(i & _ & (_ & _ & M & _))].
        -- rewrite (NF _ _ N') in U'. now contradict U'.
        -- eapply xleb_trans; eauto.
      * intros j y' J N' U'. assert (j < length (vys L ++ [v (snd p)]))%nat by (apply nth_error_Some; congruence).
        rewrite app_length in H. unfold vys in H. rewrite map_length in H. simpl in H. lia.
    + destruct IH as [[E NF]|(i & N & (N1 & U & M & F))].
      * left. split; auto. intros j y N. apply nth_error_snoc in N. destruct N as [N|[_ ->]]; eauto.
        rewrite E in LE. simpl in LE. rewrite (ov_ninf _ _ O) in LE. destruct (v (snd p)); simpl in LE; auto; discriminate.
      * right. exists i. assert (I : (i < length L)%nat) by (apply nth_error_Some; congruence).
        split; [now rewrite nth_error_app1|]. split; [|split; [auto|split]].
        { rewrite nth_error_app1; auto. unfold vys; now rewrite map_length. }
        { intros j y' N' U'. apply nth_error_snoc in N'. destruct N' as [N'|[_ ->]]; [eauto|]. apply xltb_le. now apply xleb_false. }
        { intros j y' J N' U'. apply nth_error_snoc in N'. destruct N' as [N'|[_ ->]]; [eauto|]. now apply xleb_false. }
Qed.

Lemma filter_none {A} (f : A -> bool) l : (forall a, In a l -> f a = false) -> filter f l = [].
Proof. induction l; simpl; intro H; auto. rewrite H by auto. apply IHl. intros; apply H; auto. Qed.

Lemma mom_inv L : let r := fold_left mom_pure L (s_neg s_inf, []) in
  (r = (s_neg s_inf, []) /\ no_number (vys L)) \/
  ((exists i, nth_error (vys L) i = Some (v (fst r))) /\ xnum (v (fst r)) /\
   (forall j y', nth_error (vys L) j = Some y' -> xnum y' -> xleb y' (v (fst r)) = true) /\
   snd r = map fst (filter (fun p => xeqb (v (snd p)) (v (fst r))) L)).
Proof.
  induction L as [|p L IH] using rev_ind; simpl.
  - left. split; auto. intros [|j] y H; discriminate.
  - rewrite fold_left_app. simpl. set (r := fold_left mom_pure L (s_neg s_inf, [])) in *.
    rewrite vys_snoc. unfold mom_pure. rewrite (ov_lt _ _ O), (ov_eq _ _ O).
    assert (LAST : nth_error (vys L ++ [v (snd p)]) (length L) = Some (v (snd p))).
    { replace (length L) with (length (vys L)) by apply map_length. now rewrite nth_error_app2, Nat.sub_diag by lia. }
    destruct (xltb (v (fst r)) (v (snd p))) eqn:LT.
    + right. destruct (xltb_num _ _ LT) as [N1 N2]. simpl.
      assert (ALL : forall j y', nth_error (vys L) j = Some y' -> xnum y' -> xltb y' (v (snd p)) = true).
      { intros j y' N' U'. destruct IH as [[E NF]|((i & _) & _ & M & _)].
        - rewrite (NF _ _ N') in U'. now contradict U'.
        - eapply xle_ltb_trans; eauto. }
      split; [eauto|]. split; auto. split.
      * intros j y' N' U'. apply nth_error_snoc in N'. destruct N' as [N'|[_ ->]]; [apply xltb_le; eauto|now apply xleb_refl].
      * rewrite filter_app. simpl. rewrite (xeqb_refl _ N2). rewrite filter_none; auto.
        intros a Ha. apply In_nth_error in Ha. destruct Ha as [j Ha].
        destruct (xeqb (v (snd a)) (v (snd p))) eqn:E; auto. apply xeqb_eq in E. destruct E as [E U].
        assert (C : xltb (v (snd a)) (v (snd p)) = true). { apply (ALL j); auto. apply vys_nth. eauto. }
        rewrite E, F64Facts.xltb_irrefl in C. discriminate.
    + destruct (xeqb (v (snd p)) (v (fst r))) eqn:EQ.
      * right. apply xeqb_eq in EQ. destruct EQ as [EQ U]. simpl. rewrite <- EQ.
        split; [eauto|]. split; auto. destruct IH as [[E NF]|((i & _) & _ & M & SL)].
        -- split.
           ++ intros j y' N' U'. apply nth_error_snoc in N'. destruct N' as [N'|[_ ->]]; [|now apply xleb_refl].
              rewrite (NF _ _ N') in U'. now contradict U'.
           ++ rewrite filter_app. simpl. rewrite (xeqb_refl _ U). rewrite filter_none. { rewrite E. reflexivity. }
              intros a Ha. apply In_nth_error in Ha. destruct Ha as [j Ha].
              assert (Z : v (snd a) = XNaN). { apply (NF j). apply vys_nth. eauto. } rewrite Z. reflexivity.
        -- rewrite <- EQ in M, SL. split.
           ++ intros j y' N' U'. apply nth_error_snoc in N'. destruct N' as [N'|[_ ->]]; [eauto|now apply xleb_refl].
           ++ rewrite filter_app. simpl. rewrite (xeqb_refl _ U), map_app, SL. reflexivity.
      * destruct IH as [[E NF]|((i & N) & U & M & SL)].
        -- left. split; auto. intros j y N. apply nth_error_snoc in N. destruct N as [N|[_ ->]]; eauto.
           rewrite E in LT, EQ. simpl in LT, EQ. rewrite (ov_ninf _ _ O) in LT, EQ. destruct (v (snd p)); simpl in LT, EQ; auto; discriminate.
        -- right. split; [|split; [auto|split]].
           ++ exists i. rewrite nth_error_app1; auto. apply nth_error_Some. congruence.
           ++ intros j y' N' U'. apply nth_error_snoc in N'. destruct N' as [N'|[_ ->]]; [eauto|]. now apply xltb_false.
           ++ rewrite filter_app. simpl. rewrite EQ, app_nil_r. exact SL.
Qed.

(** back to the code *)
Context (mu : T -> res T) (a b : T) (n : Z).
Definition xs := map (sample a b n) (steps n).

Lemma som_eq : isFinite (s_add a b) = true ->
  som mu a b n = (do ys <- rmapM mu xs; Ok (snd (fold_left som_pure (combine xs ys) (s_neg s_inf, s_nan)))).
Proof.
  intro F. unfold som, xs. rewrite F. simpl negb. cbv iota.
  assert (E := rfold_map (fun i => mu (sample a b n i))
     (fun (acc : T * T) i y => if s_ltb (fst acc) y then (y, sample a b n i) else acc) (steps n) (s_neg s_inf, s_nan)).
  unfold som_step. cbv zeta. etransitivity; [apply (f_equal (fun m => rbind m _) E)|].
  rewrite rmapM_map. destruct (rmapM mu _) as [ys| | |]; cbn [rbind]; auto.
  rewrite combine_map_l, fold_left_map. reflexivity.
Qed.
Lemma lom_eq : isFinite (s_add a b) = true ->
  lom mu a b n = (do ys <- rmapM mu xs; Ok (snd (fold_left lom_pure (combine xs ys) (s_neg s_inf, s_nan)))).
Proof.
  intro F. unfold lom, xs. rewrite F. simpl negb. cbv iota.
  assert (E := rfold_map (fun i => mu (sample a b n i))
     (fun (acc : T * T) i y => if s_leb (fst acc) y then (y, sample a b n i) else acc) (steps n) (s_neg s_inf, s_nan)).
  unfold lom_step. cbv zeta. etransitivity; [apply (f_equal (fun m => rbind m _) E)|].
  rewrite rmapM_map. destruct (rmapM mu _) as [ys| | |]; cbn [rbind]; auto.
  rewrite combine_map_l, fold_left_map. reflexivity.
Qed.
Lemma mom_eq : isFinite (s_add a b) = true ->
  mom mu a b n = (do ys <- rmapM mu xs; Ok (op_mean (snd (fold_left mom_pure (combine xs ys) (s_neg s_inf, []))))).
Proof.
  intro F. unfold mom, xs. rewrite F. simpl negb. cbv iota.
  assert (E := rfold_map (fun i => mu (sample a b n i))
     (fun (acc : T * list T) i y => if s_ltb (fst acc) y then (y, [sample a b n i])
        else if s_eqb y (fst acc) then (fst acc, snd acc ++ [sample a b n i]) else acc) (steps n) (s_neg s_inf, [])).
  unfold mom_step. cbv zeta. etransitivity; [apply (f_equal (fun m => rbind m _) E)|].
  rewrite rmapM_map. destruct (rmapM mu _) as [ys| | |]; cbn [rbind]; auto.
  rewrite combine_map_l, fold_left_map. reflexivity.
Qed.
Lemma vys_combine (l : list T) ys : length ys = length l -> vys (combine l ys) = map v ys.
Proof. unfold vys. revert ys; induction l; intros [|y ys] L; simpl in *; try discriminate; auto. f_equal. apply IHl. lia. Qed.

Lemma som_main ys : isFinite (s_add a b) = true -> rmapM mu xs = Ok ys ->
  (no_finite (map v ys) /\ som mu a b n = Ok s_nan) \/
  (exists i x, nth_error xs i = Some x /\ som mu a b n = Ok x /\ is_first_max (map v ys) i /\ nth_error (map v ys) i <> Some XNInf).
Proof.
  intros F R. rewrite som_eq by auto. rewrite R. cbn [rbind]. assert (L := rmapM_length _ _ _ R).
  destruct (som_inv (combine xs ys)) as [[E NF]|(i & N & FA & NI)]; rewrite vys_combine in * by auto.
  - left. split; auto. now rewrite E.
  - right. exists i. eexists. apply combine_nth_error in N. destruct N as [N1 N2]. simpl in *. split; [exact N1|].
    split; [reflexivity|]. split; [eapply first_at_spec; eauto|]. destruct FA as [FA _]. rewrite FA. congruence.
Qed.
Lemma lom_main ys : isFinite (s_add a b) = true -> rmapM mu xs = Ok ys ->
  (no_number (map v ys) /\ lom mu a b n = Ok s_nan) \/
  (exists i x, nth_error xs i = Some x /\ lom mu a b n = Ok x /\ is_last_max (map v ys) i).
Proof.
  intros F R. rewrite lom_eq by auto. rewrite R. cbn [rbind]. assert (L := rmapM_length _ _ _ R).
  destruct (lom_inv (combine xs ys)) as [[E NF]|(i & N & FA)]; rewrite vys_combine in * by auto.
  - left. split; auto. now rewrite E.
  - right. exists i. eexists. apply combine_nth_error in N. destruct N as [N1 N2]. simpl in *. split; [exact N1|].
    split; [reflexivity|]. eapply last_at_spec; eauto.
Qed.
Lemma mom_main ys : isFinite (s_add a b) = true -> rmapM mu xs = Ok ys ->
  (no_number (map v ys) /\ mom mu a b n = Ok (op_mean [])) \/
  (exists i y, nth_error (map v ys) i = Some y /\ is_max_at (map v ys) i /\
     mom mu a b n = Ok (op_mean (map fst (filter (fun p => xeqb (v (snd p)) y) (combine xs ys))))).
Proof.
  intros F R. rewrite mom_eq by auto. rewrite R. cbn [rbind]. assert (L := rmapM_length _ _ _ R).
  destruct (mom_inv (combine xs ys)) as [[E NF]|((i & N) & U & M & SL)]; rewrite vys_combine in * by auto.
  - left. split; auto. now rewrite E.
  - right. exists i. eexists. split; [exact N|]. split. { eexists. split; [exact N|]. auto. }
    now rewrite SL.
Qed.
End Select.
