(** C81: what the importers of the Fuzzy Control Language and of Fuzzy Inference System files do not accept. *)
From Coq Require Import ZArith String List Bool Ascii.
From Flocq Require Import IEEE754.BinarySingleNaN.
From Verif Require Import Base Op F64 F64Arith Norm Shape Discrete Defuzz Aggregated Text Function Rule Var Activation Engine Factory
  Fll SpecFll FllBundle Fis SpecFis FisBundle Fcl SpecFcl FclBundle SpecFis2 Fis2Bundle FisCases SpecImport ImportProofs.
Import ListNotations.
Local Open Scope string_scope.
#[local] Hint Extern 9 (Scalar _) => exact (F64Scalar fp_default) : typeclass_instances.

(** only the lines without comments, blanks around and semicolons matter, and blank lines do not *)
Theorem C81_fcl_comments : forall T (S : Scalar T) resolution text text', contents fcl_content text = contents fcl_content text' ->
  @fcl_import T S resolution text = @fcl_import T S resolution text'.
Proof. intros T S resolution text text'. exact (fcl_contents_only resolution text text'). Qed.
Print Assumptions C81_fcl_comments.
(** a line which does not belong where it is, before the end of the function block, is never ignored *)
Theorem C81_fcl_rejected : forall T (S : Scalar T) resolution text before line after e, contents fcl_content text = (before ++ line :: after)%list ->
  ~ In "END_FUNCTION_BLOCK" (map word1 before) -> fcl_rejected before line -> @fcl_import T S resolution text <> Ok e.
Proof. intros T S resolution text before line after e. exact (fcl_refused resolution text before line after e). Qed.
Print Assumptions C81_fcl_rejected.
(** a section that is not closed *)
Theorem C81_sections : forall T (S : Scalar T) resolution text t e, ~ In "END_FUNCTION_BLOCK" (map word1 (contents fcl_content text)) ->
  open_after None (map word1 (contents fcl_content text)) = Some t -> @fcl_import T S resolution text <> Ok e.
Proof. intros T S resolution text t e. exact (fcl_unclosed resolution text t e). Qed.
Print Assumptions C81_sections.
(** what comes after the end of the function block does not matter *)
Theorem C81_fcl_rest : forall T (S : Scalar T) resolution text text' before line after after', contents fcl_content text = (before ++ line :: after)%list ->
  contents fcl_content text' = (before ++ line :: after')%list -> word1 line = "END_FUNCTION_BLOCK" -> @fcl_import T S resolution text = @fcl_import T S resolution text'.
Proof. intros T S resolution text text' before line after after'. exact (fcl_rest resolution text text' before line after after'). Qed.
Print Assumptions C81_fcl_rest.
(** only the lines without comments, blanks around and quotes matter, and blank lines do not *)
Theorem C81_fis_comments : forall T (S : Scalar T) d resolution text text', map (without "'") (contents fis_content text) = map (without "'") (contents fis_content text') ->
  @fis_import T S d resolution text = @fis_import T S d resolution text'.
Proof. intros T S d resolution text text'. exact (fis_contents_only d resolution text text'). Qed.
Print Assumptions C81_fis_comments.
(** a line which does not belong where it is is never ignored *)
Theorem C81_fis_rejected : forall T (S : Scalar T) d resolution text before line after e, map (without "'") (contents fis_content text) = (before ++ line :: after)%list ->
  fis_rejected before line -> @fis_import T S d resolution text <> Ok e.
Proof. intros T S d resolution text before line after e. exact (fis_refused d resolution text before line after e). Qed.
Print Assumptions C81_fis_rejected.

(** the texts of C73 and C76 with remarks are accepted; with a wrong line in each section they are not *)
Definition insert (n : nat) (line : string) (text : list string) : string := lines (firstn n text ++ line :: skipn n text).
Definition accepts {A} (r : res A) : bool := match r with Ok _ => true | _ => false end.
Definition stops {A} (r : res A) : bool := match r with Throw _ => true | _ => false end.
Local Notation fcl text := (@fcl_import f64 (F64Scalar fp_default) 100 text).
Local Notation fis text := (@fis_import f64 (F64Scalar fis_params) 3 100 text).
Example C81_case_fcl :
  (accepts (fcl (lines heater_fcl)) && accepts (fcl (insert 8 "  % TERM x := 1;" heater_fcl)) && accepts (fcl (insert 8 "  # TERM x := 1;" heater_fcl)) && accepts (fcl (lines heater_fcl ++ "TIMER")) &&
   forallb (fun n => stops (fcl (insert n "  TIMER t 5;" heater_fcl))) [1; 3; 5; 7; 9; 13; 15; 20; 25; 30; 34] && stops (fcl (lines (firstn 9 heater_fcl))))%bool = true.
Proof. vm_compute. reflexivity. Qed.
Example C81_case_fcl_rejected :
  exists before after, contents fcl_content (insert 20 "  TIMER t 5;" heater_fcl) = (before ++ "TIMER t 5" :: after)%list /\ ~ In "END_FUNCTION_BLOCK" (map word1 before) /\ fcl_rejected before "TIMER t 5" /\ open_after None (map word1 before) = Some "DEFUZZIFY".
Proof.
  exists (firstn 14 (contents fcl_content (insert 20 "  TIMER t 5;" heater_fcl))), (skipn 15 (contents fcl_content (insert 20 "  TIMER t 5;" heater_fcl))). split; [vm_compute; reflexivity|]. vm_compute.
  repeat split; try discriminate; [intuition discriminate|]. right. right. split; intuition discriminate.
Qed.
Example C81_case_fis :
  (accepts (fis (lines cooler_fis)) && accepts (fis (insert 8 "  % Rule = 1" cooler_fis)) && accepts (fis (insert 8 " // Rule = 1" cooler_fis)) &&
   forallb (fun n => stops (fis (insert n "Rule = 1" cooler_fis))) (seq 0 (List.length cooler_fis)))%bool = true.
Proof. vm_compute. reflexivity. Qed.
Example C81_case_fis_rejected :
  exists before after, map (without "'") (contents fis_content (insert 17 "Rule = '1'" cooler_fis)) = (before ++ "Rule = 1" :: after)%list /\ fis_rejected before "Rule = 1" /\ section_after before = Some "[Input".
Proof.
  exists (firstn 14 (map (without "'") (contents fis_content (insert 17 "Rule = '1'" cooler_fis)))), (skipn 15 (map (without "'") (contents fis_content (insert 17 "Rule = '1'" cooler_fis)))). split; [vm_compute; reflexivity|]. split; [|vm_compute; reflexivity].
  split; [discriminate|]. split; [reflexivity|]. vm_compute. split; [intuition discriminate|]. intros [r H]. discriminate.
Qed.
(** outside of these guarantees: a line of the name of the function block is accepted anywhere, and so are quotes alone at the end of a section *)
Example C81_tolerated :
  (passes (fun f => String.eqb (e_name f) "other") (fcl (insert 20 "FUNCTION_BLOCK other" heater_fcl)) && accepts (fis (insert 14 "''" cooler_fis)))%bool = true.
Proof. vm_compute. reflexivity. Qed.
