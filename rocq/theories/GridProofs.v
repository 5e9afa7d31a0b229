(** Proofs about grids. *)
From Coq Require Import ZArith List Sorted Lia Bool.
From Verif Require Import Base Var Activation Grid SpecGrid.
Import ListNotations.
Local Open Scope Z_scope.

Definition carry (a lo hi : Z) (r : res (bool * list Z)) : res (bool * list Z) :=
  match r with
  | Ok (true, v) => Ok (true, a :: v)
  | Ok (false, v) => if a <? hi then Ok (true, a + 1 :: v) else Ok (false, lo :: v)
  | e => e
  end.
Lemma increment_cons m : forall a v lo min hi max,
  increment_at (S m) (a :: v) (lo :: min) (hi :: max) = carry a lo hi (increment_at m v min max).
Proof.
  induction m as [|m IH]; intros a v lo min hi max.
  - cbn. destruct (a <? hi); reflexivity.
  - cbn [increment_at]. unfold vector_at. cbn [nth_error]. destruct (nth_error v m) as [x|]; [|reflexivity].
    cbn [rbind]. destruct (nth_error max m) as [h|]; [|reflexivity]. cbn [rbind].
    destruct (x <? h); [reflexivity|]. destruct (nth_error min m) as [l|]; [|reflexivity]. cbn [rbind set_nth].
    change (increment_at (S m) (a :: set_nth m l v) (lo :: min) (hi :: max) = carry a lo hi match m with 0%nat => Ok (false, set_nth m l v) | S _ => increment_at m (set_nth m l v) min max end).
    rewrite IH. f_equal. destruct m; reflexivity.
Qed.
Lemma inc_cons a v lo min hi max : increment (a :: v) (lo :: min) (hi :: max) = carry a lo hi (increment v min max).
Proof. apply increment_cons. Qed.

(** ** visiting *)
Lemma visits_fun min max x vs z : visits min max x vs z -> forall vs' z', visits min max x vs' z' -> vs' = vs /\ z' = z.
Proof.
  induction 1 as [x y H|x y vs z H V IH]; intros vs' z' W; inversion W; subst.
  - rewrite H in H0. inversion H0. auto.
  - rewrite H in H0. discriminate.
  - rewrite H in H0. discriminate.
  - rewrite H in H0. inversion H0; subst. edestruct IH; [eassumption|]. subst. auto.
Qed.
Lemma visits_tail lo min hi max a : forall v vs z, visits min max v vs z -> forall ws y,
  (a < hi -> visits (lo :: min) (hi :: max) (a + 1 :: z) ws y) -> (hi <= a -> ws = [] /\ y = lo :: z) ->
  visits (lo :: min) (hi :: max) (a :: v) (map (cons a) vs ++ ws) y.
Proof.
  induction 1 as [v z H|v w vs z H V IH]; intros ws y Hlt Hge; cbn [map app].
  - destruct (Z.lt_ge_cases a hi) as [L|G].
    + eapply visits_more; [|auto]. rewrite inc_cons, H. cbn. destruct (Z.ltb_spec a hi); [reflexivity|lia].
    + destruct (Hge G) as [-> ->]. apply visits_last. rewrite inc_cons, H. cbn. destruct (Z.ltb_spec a hi); [lia|reflexivity].
  - eapply visits_more; [rewrite inc_cons, H; reflexivity|]. apply IH; auto.
Qed.

(** all vectors of the box, and those from a given one on *)
Fixpoint upto (n : nat) (a : Z) : list Z := match n with O => [] | S n => a :: upto n (a + 1) end.
Definition values (lo hi : Z) : list Z := upto (S (Z.to_nat (hi - lo))) lo.
Fixpoint grid (min max : list Z) : list (list Z) :=
  match min, max with
  | lo :: min, hi :: max => flat_map (fun a => map (cons a) (grid min max)) (values lo hi)
  | _, _ => [[]]
  end.
Fixpoint grid_from (v min max : list Z) : list (list Z) :=
  match v, min, max with
  | a :: v, lo :: min, hi :: max =>
    map (cons a) (grid_from v min max) ++ flat_map (fun a => map (cons a) (grid min max)) (upto (Z.to_nat (hi - a)) (a + 1))
  | _, _, _ => [[]]
  end.
Lemma grid_from_min min : forall max, grid_from min min max = grid min max.
Proof. induction min as [|lo min IH]; intros [|hi max]; cbn [grid_from grid]; auto. rewrite IH. reflexivity. Qed.
Lemma visits_from max : forall min, length min = length max -> forall v, length v = length min -> visits min max v (grid_from v min max) min.
Proof.
  induction max as [|hi max IH]; intros [|lo min] L [|a v] Lv; try discriminate.
  - apply visits_last. reflexivity.
  - cbn [length] in L, Lv. injection L as L. injection Lv as Lv. cbn [grid_from].
    remember (Z.to_nat (hi - a)) as n eqn:E. revert a v Lv E. induction n as [|n IHn]; intros a v Lv E.
    + eapply visits_tail; [apply IH; auto| |]; intros H; [lia|]. auto.
    + eapply visits_tail; [apply IH; auto| |]; intros H; [|lia].
      cbn [upto flat_map]. rewrite <- (grid_from_min min max) at 1. apply IHn; [auto|lia].
Qed.

Lemma in_upto n : forall a x, In x (upto n a) <-> a <= x < a + Z.of_nat n.
Proof.
  induction n as [|n IH]; intros a x; cbn [upto In]; [lia|]. rewrite IH. lia.
Qed.
Lemma in_grid min : forall max v, length min = length max -> (In v (grid min max) <-> boxed min max v).
Proof.
  induction min as [|lo min IH]; intros [|hi max] v L; try discriminate.
  - cbn. split; [intros [<-|[]]; constructor|inversion 1; auto].
  - cbn [grid]. injection L as L. rewrite in_flat_map. unfold values. split.
    + intros (a & Ha & Hv). apply in_map_iff in Hv. destruct Hv as (w & <- & Hw). apply in_upto in Ha.
      constructor; [lia|]. apply IH; auto.
    + inversion 1; subst. exists x. split; [apply in_upto; lia|]. apply in_map, IH; auto.
Qed.
Lemma boxed_length min max v : boxed min max v -> length v = length min.
Proof. induction 1; cbn; auto. Qed.
Lemma boxed_same min max v : boxed min max v -> length min = length max.
Proof. induction 1; cbn; auto. Qed.
Lemma in_grid_from max : forall min v, boxed min max v -> forall w, In w (grid_from v min max) <-> boxed min max w /\ (w = v \/ lex v w).
Proof.
  induction max as [|hi max IH]; intros min v B w; inversion B; subst.
  - cbn. split; [intros [<-|[]]; auto using boxed|]. intros [H _]. inversion H; auto.
  - cbn [grid_from]. rewrite in_app_iff, in_map_iff, in_flat_map.
    assert (L : length min0 = length max) by (eapply boxed_same; eassumption). split.
    + intros [(u & <- & Hu)|(b & Hb & Hu)].
      * apply IH in Hu; [|auto]. destruct Hu as [Hu [-> | Hl]]; (split; [constructor; auto|]); [auto|right; apply lex_tail; auto].
      * apply in_map_iff in Hu. destruct Hu as (u & <- & Hu). apply in_grid in Hu; [|auto]. apply in_upto in Hb.
        split; [constructor; [lia|auto]|]. right. apply lex_head; [lia|]. rewrite (boxed_length _ _ _ Hu). apply (boxed_length _ _ _ H4).
    + intros [Bw Hw]. inversion Bw; subst. destruct Hw as [E|Hw].
      * injection E as -> ->. left. exists v0. split; [auto|]. apply IH; auto.
      * inversion Hw; subst.
        -- right. exists x0. split; [apply in_upto; lia|]. apply in_map, in_grid; auto.
        -- left. exists v. split; [auto|]. apply IH; auto.
Qed.

Lemma sorted_app {A} (R : A -> A -> Prop) l : StronglySorted R l -> forall m, StronglySorted R m -> (forall x y, In x l -> In y m -> R x y) -> StronglySorted R (l ++ m).
Proof.
  induction 1 as [|x l Sl IH Fx]; intros m Sm H; [exact Sm|]. cbn [app]. constructor.
  - apply IH; [auto|]. intros; apply H; cbn; auto.
  - rewrite Forall_app. split; [auto|]. apply Forall_forall. intros. apply H; cbn; auto.
Qed.
Lemma sorted_cons a l : StronglySorted lex l -> StronglySorted lex (map (cons a) l).
Proof.
  induction 1 as [|x l Sl IH Fx]; cbn; constructor; auto.
  apply Forall_forall. intros y Hy. apply in_map_iff in Hy. destruct Hy as (w & <- & Hw). apply lex_tail. rewrite Forall_forall in Fx. auto.
Qed.
Lemma sorted_blocks (g : list (list Z)) k : StronglySorted lex g -> (forall v, In v g -> length v = k) -> forall n a,
  StronglySorted lex (flat_map (fun a => map (cons a) g) (upto n a)).
Proof.
  intros Sg Lg. induction n as [|n IH]; intros a; cbn [upto flat_map]; [constructor|].
  apply sorted_app; [apply sorted_cons; auto|apply IH|]. intros x y Hx Hy.
  apply in_map_iff in Hx. destruct Hx as (v & <- & Hv). apply in_flat_map in Hy. destruct Hy as (b & Hb & Hy).
  apply in_map_iff in Hy. destruct Hy as (w & <- & Hw). apply in_upto in Hb. apply lex_head; [lia|]. rewrite (Lg _ Hv), (Lg _ Hw). reflexivity.
Qed.
Lemma sorted_grid min : forall max, length min = length max -> StronglySorted lex (grid min max).
Proof.
  induction min as [|lo min IH]; intros [|hi max] L; try discriminate.
  - cbn. repeat constructor.
  - cbn [grid]. injection L as L. unfold values. apply sorted_blocks with (k := length min); [auto|].
    intros v Hv. apply in_grid in Hv; [|auto]. apply boxed_length in Hv. auto.
Qed.
Lemma sorted_from max : forall min v, boxed min max v -> StronglySorted lex (grid_from v min max).
Proof.
  induction max as [|hi max IH]; intros min v B; inversion B; subst.
  - cbn. repeat constructor.
  - cbn [grid_from]. assert (L : length min0 = length max) by (eapply boxed_same; eassumption).
    apply sorted_app; [apply sorted_cons, IH; auto| |].
    + apply sorted_blocks with (k := length min0); [apply sorted_grid; auto|].
      intros w Hw. apply in_grid in Hw; [|auto]. apply boxed_length in Hw. auto.
    + intros y z Hy Hz. apply in_map_iff in Hy. destruct Hy as (u & <- & Hu). apply in_flat_map in Hz. destruct Hz as (b & Hb & Hz).
      apply in_map_iff in Hz. destruct Hz as (w & <- & Hw). apply in_upto in Hb. apply in_grid in Hw; [|auto].
      apply in_grid_from in Hu; [|auto]. destruct Hu as [Hu _]. apply lex_head; [lia|].
      rewrite (boxed_length _ _ _ Hw). apply (boxed_length _ _ _ Hu).
Qed.

Lemma length_upto n : forall a, length (upto n a) = n.
Proof. induction n as [|n IH]; intros; cbn; auto. Qed.
Lemma length_blocks (g : list (list Z)) l : length (flat_map (fun a => map (cons a) g) l) = (length l * length g)%nat.
Proof. induction l as [|a l IH]; [reflexivity|]. cbn [flat_map length]. rewrite app_length, map_length, IH. lia. Qed.
Lemma length_grid min : forall max, length min = length max -> length (grid min max) = grid_size min max.
Proof.
  induction min as [|lo min IH]; intros [|hi max] L; try discriminate; [reflexivity|]. injection L as L.
  cbn [grid]. rewrite length_blocks, IH by auto. unfold values. rewrite length_upto. reflexivity.
Qed.
Lemma grid_count min : forall max, length min = length max -> Z.of_nat (grid_size min max) = box_count min max.
Proof.
  induction min as [|lo min IH]; intros [|hi max] L; try discriminate; [reflexivity|]. injection L as L.
  unfold grid_size, box_count in *. cbn [combine fold_right map fst snd]. rewrite Nat2Z.inj_mul, IH by auto. f_equal. lia.
Qed.
Lemma boxed_min min : forall max, length min = length max -> boxed min max min.
Proof. induction min as [|lo min IH]; intros [|hi max] L; try discriminate; constructor; auto; lia. Qed.

(** ** the theorems *)
Theorem enumerates min max : length min = length max -> exists vs,
  visits min max min vs min /\ (forall v, In v vs <-> boxed min max v) /\ StronglySorted lex vs /\ Z.of_nat (length vs) = box_count min max.
Proof.
  intros L. exists (grid min max). rewrite <- (grid_from_min min max) at 1. split; [apply visits_from; auto|].
  split; [intros; apply in_grid; auto|]. split; [apply sorted_grid; auto|]. rewrite length_grid by auto. apply grid_count; auto.
Qed.
Theorem continues min max v : boxed min max v -> exists vs,
  visits min max v vs min /\ (forall w, In w vs <-> boxed min max w /\ (w = v \/ lex v w)) /\ StronglySorted lex vs.
Proof.
  intros B. pose proof (boxed_same _ _ _ B) as L. exists (grid_from v min max).
  split; [apply visits_from; [auto|apply (boxed_length _ _ _ B)]|]. split; [apply in_grid_from; auto|apply sorted_from; auto].
Qed.
Lemma lex_irr v : ~ lex v v.
Proof. induction v as [|a v IH]; intros H; inversion H; subst; [lia|auto]. Qed.
Lemma sorted_nodup l : StronglySorted lex l -> NoDup l.
Proof.
  induction 1 as [|x l Sl IH Fx]; constructor; auto. intros H. rewrite Forall_forall in Fx. apply (lex_irr x). auto.
Qed.

(** ** the loop *)
Section Loop.
Context {A : Type} (body : list Z -> A -> A * res unit).
(** what the loop does to the vectors it visits *)
Fixpoint each (vs : list (list Z)) (a : A) : A * res unit :=
  match vs with
  | [] => (a, Ok tt)
  | v :: vs => match body v a with (a, Ok _) => each vs a | r => r end
  end.
Lemma loop_each min max x vs z : visits min max x vs z -> forall fuel a, (length vs <= fuel)%nat -> grid_loop fuel body min max x a = each vs a.
Proof.
  induction 1 as [x y H|x y vs z H V IH]; intros [|fuel] a F; cbn [length] in F; try lia; cbn [grid_loop each].
  - destruct (body x a) as [a' [[]| | |]]; try reflexivity. rewrite H. reflexivity.
  - destruct (body x a) as [a' [[]| | |]]; try reflexivity. rewrite H. apply IH. lia.
Qed.
Lemma loop_grid min max a : length min = length max -> grid_loop (grid_size min max) body min max min a = each (grid min max) a.
Proof.
  intros L. eapply loop_each; [rewrite <- grid_from_min; apply visits_from; auto|]. rewrite length_grid; auto.
Qed.
End Loop.
