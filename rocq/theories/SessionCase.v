(** Sessions with the example engines of the console. *)
From Coq Require Import ZArith String List Bool Ascii Lia.
From Flocq Require Import IEEE754.BinarySingleNaN.
From Verif Require Import Base Op F64 Text Var Activation Engine Grid Fll Console SpecEngine SpecFld ActivationProofs3 SpecSession SessionProofs.
Import ListNotations.
Local Open Scope string_scope.
#[local] Hint Extern 9 (Scalar _) => exact (F64Scalar fp_default) : typeclass_instances.
Definition session_of (e : engine f64) (keys : string) : session * res unit := interactive (@stable_drain f64) (fun _ => "error") 3 (list_ascii_of_string keys) e.
Definition shown (r : session (T := f64) * res unit) : string := ss_written (fst r).
Definition dimmer : engine f64 := match example_mamdani with Ok e => e | _ => mkEngine "" "" [] [] [] end.
Definition approximation : engine f64 := match example_takagi_sugeno with Ok e => e | _ => mkEngine "" "" [] [] [] end.
Definition pair : engine f64 := mkEngine "" "" [variable_new "a" (f64_lit 0 1) (f64_lit 1 1) []; variable_new "b" (f64_lit 0 1) (f64_lit 1 1) []] [] [].
Lemma dimmer_memoryless : memoryless dimmer.
Proof.
  split.
  - intros t f n v I B. exfalso. assert (X : forallb (fun t => match tm_body t with TFunction _ => false | _ => true end) (all_terms dimmer) = true) by (vm_compute; reflexivity).
    rewrite forallb_forall in X. specialize (X t I). rewrite B in X. discriminate.
  - apply List.Forall_forall. intros o I _. assert (X : forallb (fun o => negb (o_lock_previous o)) (e_outputs dimmer) = true) by (vm_compute; reflexivity).
    rewrite forallb_forall in X. specialize (X o I). now destruct (o_lock_previous o).
Qed.
(** the words of a row, decided *)
Definition plainb (w : string) : bool := forallb (fun c => (Nat.ltb 32 (nat_of_ascii c) && Nat.ltb (nat_of_ascii c) 127 && negb (existsb (Ascii.eqb c) reserved))%bool) (list_ascii_of_string w).
Lemma plainb_plain w : plainb w = true -> plain_word w.
Proof.
  unfold plainb. intros H c I. rewrite forallb_forall in H. apply H in I. apply Bool.andb_true_iff in I as [I N]. apply Bool.andb_true_iff in I as [I J].
  apply Nat.ltb_lt in I, J. split; [lia|]. intro R. apply Bool.negb_true_iff, Bool.not_true_iff_false in N. apply N, existsb_exists. exists c. split; [exact R|]. apply Ascii.eqb_refl.
Qed.
Definition number (w : string) : f64 := match to_scalar w with Ok x => x | _ => s_nan end.
Definition is_number (w : string) : bool := match to_scalar (T := f64) w with Ok _ => true | _ => false end.
Lemma number_entry v w : is_number w = true -> entry (T := f64) 3 v w (number w) w.
Proof. unfold is_number. intros H. apply entry_number. unfold number. destruct (to_scalar w); try discriminate H. reflexivity. Qed.
Lemma no_number_entry v w : is_number w = false -> entry (T := f64) 3 v w v (w ++ "[" ++ str 3 v ++ "]").
Proof. unfold is_number. intros H. apply entry_kept. intros x E. now rewrite E in H. Qed.
Lemma values_answer (e : engine f64) xs : match fst (evaluation (@stable_drain f64) e xs) with Ok _ => true | _ => false end = true ->
  answer (@stable_drain f64) 3 (fun _ => "error") e xs (join_scalars 3 (snd (evaluation (@stable_drain f64) e xs)) ht ++ eol ++ ">").
Proof. intros H. apply answer_values. destruct (evaluation _ e xs) as [[[]| | |] outs]; try discriminate H. reflexivity. Qed.
(** 0.25, then a word that is not a number, then 0.5 abandoned, then 0.75 and the end *)
Definition case_keys : list ascii := list_ascii_of_string "0.25 x 0.5D0.75".
Lemma session_case : memoryless dimmer /\ exists text, transcript (@stable_drain f64) 3 (fun _ => "error") interactive_help dimmer case_keys text /\
  text = "0.25" ++ ht ++ "=" ++ ht ++ "1.500" ++ eol ++ ">x[0.250]" ++ ht ++ "=" ++ ht ++ "1.500" ++ eol ++ ">0.5#[Discard]" ++ eol ++ ">0.75".
Proof.
  split; [exact dimmer_memoryless|]. pose (e1 := set_inputs [number "0.25"] dimmer). pose (v1 := hd s_nan (values_of e1)). pose (e2 := set_inputs [v1] e1).
  eexists. split.
  - change case_keys with (typed [("0.25", " "%char)] ++ typed [("x", " "%char)] ++ typed [] ++ list_ascii_of_string "0.5" ++ "D"%char :: (typed [] ++ list_ascii_of_string "0.75" ++ []))%list.
    assert (V0 : values_of dimmer = [hd s_nan (values_of dimmer)]) by reflexivity. assert (V1 : values_of e1 = [v1]) by reflexivity.
    eapply tr_row with (xs := [number "0.25"]).
    + rewrite V0. eapply reading_word; [apply plainb_plain; reflexivity|right; reflexivity|apply number_entry; vm_compute; reflexivity|apply reading_none].
    + discriminate.
    + reflexivity.
    + apply values_answer. vm_compute. reflexivity.
    + fold e1. eapply tr_row with (xs := [v1]).
      * rewrite V1. eapply reading_word; [apply plainb_plain; reflexivity|right; reflexivity|apply no_number_entry; vm_compute; reflexivity|apply reading_none].
      * discriminate.
      * reflexivity.
      * apply values_answer. vm_compute. reflexivity.
      * fold e2. eapply tr_discard; [apply reading_none|apply Nat.ltb_lt; vm_compute; reflexivity|apply plainb_plain; reflexivity|simpl; tauto|].
        eapply tr_end; [apply reading_none|apply Nat.ltb_lt; vm_compute; reflexivity|apply plainb_plain; reflexivity|exact I].
  - vm_compute. reflexivity.
Qed.
(** refutations *)
Lemma restart_keeps : exists e, shown (session_of e "1 R2 ") = ">1" ++ ht ++ "#[Restart]2" ++ ht ++ "=" ++ ht ++ eol ++ ">" /\ shown (session_of e "1 D2 ") = ">1" ++ ht ++ "#[Discard]" ++ eol ++ ">2" ++ ht.
Proof. exists pair. split; vm_compute; reflexivity. Qed.
Lemma unfinished : exists e, memoryless e /\ shown (session_of e "0.25 0.5 ") = ">0.25" ++ ht ++ "=" ++ ht ++ "1.500" ++ eol ++ ">0.5" ++ ht ++ "=" ++ ht ++ "1.000" ++ eol ++ ">" /\
  shown (session_of e "0.25 0.5P") = ">0.25" ++ ht ++ "=" ++ ht ++ "1.500" ++ eol ++ ">0.50.250" ++ ht ++ "=" ++ ht ++ "1.500" ++ eol ++ ">".
Proof. exists dimmer. split; [exact dimmer_memoryless|]. split; vm_compute; reflexivity. Qed.
Lemma no_inputs : exists e, is_ready e = false /\ snd (session_of e " ") = Throw EOutOfRange.
Proof. exists (mkEngine "" "" [] [] []). split; reflexivity. Qed.
Lemma locked_twice : exists e x y,
  let e1 := fst (process (@stable_drain f64) (set_inputs [x] e)) in
  map (str 3) (snd (evaluation (@stable_drain f64) e [x])) = ["0.450"; "1.000"; "-0.550"] /\ map (str 3) (snd (evaluation (@stable_drain f64) e1 [y])) = ["nan"; "1.000"; "nan"] /\
  number "2" = x /\ number "30" = y /\
  shown (session_of e "2 30 ") = ">2" ++ ht ++ "=" ++ ht ++ "0.450" ++ ht ++ "1.000" ++ ht ++ "-0.550" ++ eol ++ ">30" ++ ht ++ "=" ++ ht ++ "0.450" ++ ht ++ "1.000" ++ ht ++ "-0.550" ++ eol ++ ">".
Proof. exists approximation, (number "2"), (number "30"). split; [vm_compute; reflexivity|]. split; [vm_compute; reflexivity|]. split; [reflexivity|]. split; [reflexivity|]. vm_compute. reflexivity. Qed.
