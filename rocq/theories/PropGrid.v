(** C63, C64 and C71: grids of values, dataset export. *)
From Coq Require Import ZArith String List Bool Reals Sorted.
From Flocq Require Import Core IEEE754.BinarySingleNaN.
From Verif Require Import Base Op XR F64 F64Facts F64Arith Text Var Activation Engine Grid Benchmark SpecEngine SpecGrid SpecFld ActivationProofs3 EngineBundle
  GridProofs FldProofs FldProofs2 FldReal FldBundle BenchProofs.
Import ListNotations.
#[local] Hint Extern 9 (Scalar _) => exact (F64Scalar fp_default) : typeclass_instances.

(** * C63: counting through a box of vectors *)
Theorem C63_enumerates : forall min max : list Z, length min = length max -> exists vs,
  visits min max min vs min /\ (forall v, In v vs <-> boxed min max v) /\ StronglySorted lex vs /\ Z.of_nat (length vs) = box_count min max.
Proof. exact enumerates. Qed.
Print Assumptions C63_enumerates.
Theorem C63_once : forall vs : list (list Z), StronglySorted lex vs -> NoDup vs.
Proof. exact sorted_nodup. Qed.
Print Assumptions C63_once.
(** from any vector of the box: that one and those after it *)
Theorem C63_continues : forall min max v : list Z, boxed min max v -> exists vs,
  visits min max v vs min /\ (forall w, In w vs <-> boxed min max w /\ (w = v \/ lex v w)) /\ StronglySorted lex vs.
Proof. exact continues. Qed.
Print Assumptions C63_continues.
Theorem C63_determined : forall min max x vs z, visits min max x vs z -> forall vs' z', visits min max x vs' z' -> vs' = vs /\ z' = z.
Proof. exact visits_fun. Qed.
Print Assumptions C63_determined.
Example C63_case : visits [0; 5]%Z [1; 6]%Z [0; 5]%Z [[0; 5]; [0; 6]; [1; 5]; [1; 6]]%Z [0; 5]%Z /\ box_count [0; 5]%Z [1; 6]%Z = 4%Z /\
  visits [3]%Z [1]%Z [3]%Z [[3]]%Z [3]%Z.
Proof.
  split; [|split; [reflexivity|apply visits_last; reflexivity]].
  repeat (eapply visits_more; [reflexivity|]). apply visits_last. reflexivity.
Qed.

(** * C64: the dataset over a grid *)
Theorem C64_rows : forall T (S : Scalar T) (drain : drainer T) (x : fld) values sc active (e : engine T) resolution,
  memoryless e -> length active = length (e_inputs e) -> e_inputs e <> [] -> Forall2 stable active (e_inputs e) ->
  resolution_for values sc (length (e_inputs e)) = Ok resolution ->
  let origin := repeat 0%Z (length active) in
  exists ks e' rows r,
    (forall k, In k ks <-> boxed origin (tops resolution active) k) /\ StronglySorted lex ks /\ NoDup ks /\
    Z.of_nat (length ks) = ((1 + Z.max 0 resolution) ^ Z.of_nat (length (filter (fun a => a) active)))%Z /\
    fld_grid drain x values sc active e = ((e', rows), r) /\
    table drain e (fun k => inputs_at resolution active k (e_inputs e)) (row_of x) ks rows r /\
    (r = Ok tt <-> length rows = length ks).
Proof. exact @fld_rows. Qed.
Print Assumptions C64_rows.
(** benchmarks use the same points *)
Theorem C64_prepare : forall T (S : Scalar T) values sc (e : engine T) resolution, resolution_for values sc (length (e_inputs e)) = Ok resolution ->
  let n := length (e_inputs e) in exists ks, visits (repeat 0%Z n) (repeat resolution n) (repeat 0%Z n) ks (repeat 0%Z n) /\
  prepare values sc e = Ok (map (fun k => inputs_at resolution (repeat true n) k (e_inputs e)) ks).
Proof. exact @prepare_grid. Qed.
Print Assumptions C64_prepare.
(** over the reals the points divide the range evenly, from the minimum to the maximum *)
Theorem C64_points : forall (P : xparam) (lo hi : R) (r k : Z), (lo <= hi)%R -> (0 <= k <= Z.max 0 r)%Z ->
  exists x, @grid_point xr (XRScalar P) (XFin lo) (XFin hi) r k = XFin x /\ (lo <= x <= hi)%R /\ (k = 0%Z -> x = lo) /\ ((0 < r)%Z -> k = r -> x = hi) /\
    ((0 <= k + 1 <= r)%Z -> @grid_point xr (XRScalar P) (XFin lo) (XFin hi) r (k + 1) = XFin (x + (hi - lo) / IZR r)).
Proof. exact point_real. Qed.
Print Assumptions C64_points.
(** in binary64 they do not decrease and none is below the minimum *)
Theorem C64_points_f64 : forall (P : fparam) (lo hi : f64) r j k, is_finite lo = true -> (0 <= j <= k)%Z -> (k <= r)%Z -> (1 <= r < 2 ^ 53)%Z ->
  is_finite (Bminus mode_NE hi lo) = true -> (0 <= B2R (Bminus mode_NE hi lo))%R ->
  is_finite (Bmult mode_NE (@s_int f64 (F64Scalar P) r) (Bminus mode_NE hi lo)) = true -> is_finite (@grid_point f64 (F64Scalar P) lo hi r r) = true ->
  Bleb lo (@grid_point f64 (F64Scalar P) lo hi r j) = true /\
  Bleb (@grid_point f64 (F64Scalar P) lo hi r j) (@grid_point f64 (F64Scalar P) lo hi r k) = true.
Proof. exact point_f64. Qed.
Print Assumptions C64_points_f64.
(** but the last one may be above the maximum: range [-2, -0.9] *)
Theorem C64_above_refuted : exists (lo hi : f64) (r : Z), Bleb lo hi = true /\ (1 <= r)%Z /\ is_finite (grid_point lo hi r r) = true /\
  Bltb hi (grid_point lo hi r r) = true.
Proof. exists (f64_lit (-2) 1), (f64_lit (-9) 10), 1%Z. repeat split; try (vm_compute; reflexivity). discriminate. Qed.
Print Assumptions C64_above_refuted.
(** number of values in all: over the reals the greatest number of points per variable which does not exceed it *)
Theorem C64_values : forall (P : xparam) (v : Z) (n : nat), (1 <= v <= 2147483647)%Z -> (0 < n)%nat -> exists k,
  @resolution_for xr (XRScalar P) v AllVariables n = Ok (k - 1)%Z /\ (1 <= k)%Z /\ (k ^ Z.of_nat n <= v < (k + 1) ^ Z.of_nat n)%Z.
Proof. exact resolution_real. Qed.
Print Assumptions C64_values.
Theorem C64_values_each : forall T (S : Scalar T) (v : Z) (n : nat), resolution_for (T := T) v EachVariable n = Ok (v - 1)%Z.
Proof. reflexivity. Qed.
Print Assumptions C64_values_each.
(** in binary64 it may be less: 1000 values for three variables, with a correctly rounded pow, give nine values for each, although 10^3 = 1000 *)
Theorem C64_values_refuted : forall P : fparam, let third := Bdiv mode_NE (f64_lit 1 1) (f64_lit 3 1) in
  is_finite (fp_fn2 P LPow (f64_lit 1000 1) third) = true ->
  B2R (fp_fn2 P LPow (f64_lit 1000 1) third) = rnd (Rpower (B2R (f64_lit 1000 1)) (B2R third)) ->
  @resolution_for f64 (F64Scalar P) 1000 AllVariables 3 = Ok (9 - 1)%Z /\ (10 ^ 3 = 1000)%Z.
Proof. intros P third F E. split; [exact (cube_root_f64 P F E)|reflexivity]. Qed.
Print Assumptions C64_values_refuted.
(** without input variables the conversion to int is undefined *)
Theorem C64_no_inputs_refuted : forall (P : xparam) v, (1 < v)%Z -> @resolution_for xr (XRScalar P) v AllVariables 0 = UB.
Proof. exact resolution_empty. Qed.
Print Assumptions C64_no_inputs_refuted.

Lemma sample_memoryless : memoryless sample.
Proof. split; [apply no_formula; vm_compute; reflexivity|]. constructor; [reflexivity|constructor]. Qed.
Definition rows_equal (l m : list (list f64)) : bool := Nat.eqb (length l) (length m) && forallb (fun p => all_equal (fst p) (snd p)) (combine l m).
Example C64_case : memoryless sample /\ Forall2 stable [true] (e_inputs sample) /\ resolution_for (T := f64) 3 EachVariable 1 = Ok 2%Z /\
  let g := fld_grid stable_drain (fld_new " ") 3 EachVariable [true] sample in
  snd g = Ok tt /\ rows_equal (snd (fst g)) [[q 0 1; q 1 4]; [q 1 2; q 1 2]; [q 1 1; q 3 4]] = true.
Proof.
  split; [exact sample_memoryless|]. split; [constructor; [discriminate|constructor]|]. split; [reflexivity|].
  split; vm_compute; reflexivity.
Qed.

(** * C71: the dataset for the lines of a stream *)
Theorem C71_lines : forall T (S : Scalar T) (drain : drainer T) (x : fld) (lines : list string) (e : engine T), memoryless e -> exists e' rows r,
  fld_lines drain x true lines e [] = ((e', rows), r) /\ answers drain e (row_of x) true lines rows r.
Proof. intros T S drain x lines e. exact (fld_reader drain x e lines). Qed.
Print Assumptions C71_lines.
Theorem C71_determined : forall T (S : Scalar T) (drain : drainer T) (e : engine T) row first lines rows r, answers drain e row first lines rows r ->
  forall rows' r', answers drain e row first lines rows' r' -> rows' = rows /\ r' = r.
Proof. exact @answers_fun. Qed.
Print Assumptions C71_determined.
(** a comment before the header makes the header an error *)
Theorem C71_header_refuted : exists lines : list string, hd_error lines = Some "# comment"%string /\
  snd (fld_lines stable_drain (fld_new " ") true (tl lines) sample []) = Ok tt /\
  exists err, snd (fld_lines stable_drain (fld_new " ") true lines sample []) = Throw err.
Proof.
  exists ["# comment"; "x y"; "0.5"]%string. split; [reflexivity|]. split; [vm_compute; reflexivity|]. exists EConversion. vm_compute. reflexivity.
Qed.
Print Assumptions C71_header_refuted.
Example C71_case : memoryless sample /\ let g := fld_lines stable_drain (fld_new " ") true ["x y"; " 0.0 7"; "#1"; ""; "1.0"]%string sample [] in
  snd g = Ok tt /\ rows_equal (snd (fst g)) [[q 0 1; q 1 4]; []; [q 1 1; q 3 4]] = true.
Proof. split; [exact sample_memoryless|]. split; vm_compute; reflexivity. Qed.
