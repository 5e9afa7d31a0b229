(** C89: lines of FCL and FIS files which switch variables and rule blocks on and off. *)
From Coq Require Import ZArith String List Bool Ascii.
From Flocq Require Import IEEE754.BinarySingleNaN.
From Verif Require Import Base Op F64 F64Arith Norm Shape Discrete Defuzz Aggregated Text Function Rule Var Activation Engine Factory
  Fll SpecFll FllBundle Fis SpecFis FisBundle Fcl SpecFcl FclBundle SpecFis2 Fis2Bundle FisCases SpecSwitch SwitchProofs.
Import ListNotations.
Local Open Scope string_scope.

(** * C89 *)
(** FCL: a switch changes nothing else; what is neither TRUE nor FALSE is an error *)
Theorem C89_fcl : forall T (S : Scalar T) value line, switch_line value line ->
  (forall b, padded (flag b) value -> (forall (e : engine T) i v, fcl_input_line e i v line = Ok (switched b v)) /\ (forall resolution (e : engine T) i o, fcl_output_line resolution e i o line = Ok (switched_output b o)) /\
    (forall env (l : block T), fcl_block_line env l line = Ok (switched_block b l))) /\
  (lacks ":" value = true -> (forall b, ~ padded (flag b) value) -> (forall (e : engine T) i v, fcl_input_line e i v line = Throw ESyntax) /\ (forall resolution (e : engine T) i o, fcl_output_line resolution e i o line = Throw ESyntax) /\
    (forall env (l : block T), fcl_block_line env l line = Throw ESyntax)).
Proof. exact @fcl_switch. Qed.
Print Assumptions C89_fcl.
(** FCL: locks of output variables *)
Theorem C89_locks : forall T (S : Scalar T) value line, lock_line value line ->
  (forall p r, asks p r value -> forall resolution (e : engine T) i o, fcl_output_line resolution e i o line = Ok (range_locked r (previous_locked p o))) /\
  (lacks "|" value = true -> (forall p r, ~ asks p r value) -> forall resolution (e : engine T) i o, fcl_output_line resolution e i o line = Throw ESyntax) /\
  (forall (e : engine T) i v, fcl_input_line e i v line = Throw ESyntax) /\
  (forall env (l : block T), fcl_block_line env l line = Throw ESyntax).
Proof. exact @fcl_lock. Qed.
Print Assumptions C89_locks.
(** FIS: the number 1 means yes, every other number no *)
Theorem C89_fis : forall T (S : Scalar T) key value line, setting key value line -> plain_value value ->
  (key = "Enabled" -> (forall x : T, to_scalar value = Ok x -> (forall e v, fis_input_line e v line = Ok (switched (isEq x s_1) v)) /\ (forall e o, fis_output_line e o line = Ok (switched_output (isEq x s_1) o)))) /\
  (key = "LockRange" -> forall x : T, to_scalar value = Ok x -> forall e o, fis_output_line e o line = Ok (range_locked (isEq x s_1) o)) /\
  (key = "LockPrevious" -> forall x : T, to_scalar value = Ok x -> forall e o, fis_output_line e o line = Ok (previous_locked (isEq x s_1) o)) /\
  (key = "Default" -> forall x : T, to_scalar value = Ok x -> forall e o, fis_output_line e o line = Ok (defaulted x o)) /\
  (In key ["LockRange"; "LockPrevious"; "Default"] -> forall (e : engine T) v, fis_input_line e v line = Throw EImport) /\
  (In key ["Enabled"; "LockRange"; "LockPrevious"; "Default"] -> (forall x : T, to_scalar value <> Ok x) -> forall e o o', fis_output_line e o line <> Ok o').
Proof. exact @fis_switch. Qed.
Print Assumptions C89_fis.
(** the blank before the colon matters: "ENABLED: FALSE" is an error in all three sections *)
Theorem C89_colon_refuted : forall T (S : Scalar T), let line := "ENABLED: FALSE" in
  (forall (e : engine T) i v, fcl_input_line e i v line = Throw ESyntax) /\ (forall resolution (e : engine T) i o, fcl_output_line resolution e i o line = Throw ESyntax) /\ (forall env (l : block T), fcl_block_line env l line = Throw ESyntax).
Proof. intros T S line. repeat split; reflexivity. Qed.
Print Assumptions C89_colon_refuted.

Local Notation fcl text := (@fcl_import f64 (F64Scalar fp_default) 100 (lines text)).
Local Notation fis text := (@fis_import f64 (F64Scalar fis_params) 3 100 (lines text)).
Definition put (n : nat) (line : string) (text : list string) : list string := (firstn n text ++ line :: skipn n text)%list.
Definition states (e : engine f64) : list bool * list bool * list bool := (map (@v_enabled f64) (e_inputs e), map (fun o => v_enabled (o_var o)) (e_outputs e), map (@b_enabled f64) (e_blocks e)).
Definition agree (a b : list bool * list bool * list bool) : bool :=
  let same := fix same (l m : list bool) := match l, m with [], [] => true | x :: l, y :: m => (Bool.eqb x y && same l m)%bool | _, _ => false end in
  (same (fst (fst a)) (fst (fst b)) && same (snd (fst a)) (snd (fst b)) && same (snd a) (snd b))%bool.
(** whole files *)
Example C89_case : switch_line " FALSE" "ENABLED  : FALSE" /\ padded (flag false) " FALSE" /\ setting "Enabled" "0" " Enabled = 0" /\ plain_value "0" /\
  (passes (fun e => agree (states e) ([true], [true], [true])) (fcl heater_fcl) &&
   passes (fun e => agree (states e) ([false], [true], [true])) (fcl (put 13 "  ENABLED  : FALSE;" heater_fcl)) && passes (fun e => agree (states e) ([true], [false], [true])) (fcl (put 20 "ENABLED : FALSE" heater_fcl)) &&
   passes (fun e => agree (states e) ([true], [true], [false])) (fcl (put 29 "ENABLED : FALSE" heater_fcl)) && passes (fun e => match e_inputs e with [v; w] => negb (v_enabled v) && v_enabled w | _ => false end) (fis (put 16 " Enabled = 0" cooler_fis)))%bool = true.
Proof.
  split; [exists " "; split; reflexivity|]. split; [exists " ", ""; repeat split|]. split; [exists " Enabled ", " 0"; split; [reflexivity|]; split; [exists " ", " "|exists " ", ""]; repeat split|]. split; [split; [discriminate|split; reflexivity]|].
  vm_compute. reflexivity.
Qed.
Example C89_locks_case : lock_line " RANGE | PREVIOUS" "LOCK : RANGE | PREVIOUS" /\ asks true true " RANGE | PREVIOUS" /\ asks true false " PREVIOUS " /\ asks false true "RANGE" /\ (forall p r, ~ asks p r " NONE") /\
  passes (fun e => match e_outputs e with [o] => v_lock_range (o_var o) && negb (o_lock_previous o) | _ => false end) (fcl (put 26 "LOCK : RANGE" heater_fcl)) = true.
Proof.
  split; [exists ""; split; reflexivity|]. split; [apply (asks_both_back " RANGE " " PREVIOUS"); [exists " ", " "|exists " ", ""]; repeat split|]. split; [apply asks_previous; exists " ", " "; repeat split|]. split; [apply asks_range; exists "", ""; repeat split|].
  split; [|vm_compute; reflexivity]. intros p r A. remember " NONE" as s eqn:E. destruct A as [t A|t A|a b A B|a b A B].
  - assert (Q := padded_trim _ _ A eq_refl). rewrite E in Q. discriminate Q.
  - assert (Q := padded_trim _ _ A eq_refl). rewrite E in Q. discriminate Q.
  - apply (f_equal (lacks "|")) in E. rewrite !FllText.lacks_app in E. destruct (lacks "|" a); discriminate E.
  - apply (f_equal (lacks "|")) in E. rewrite !FllText.lacks_app in E. destruct (lacks "|" a); discriminate E.
Qed.
