(** The exporter to scripts of R (/repo/src/imex/RScriptExporter.cpp).  Scripts are returned as texts; opening files (lines 104-144) is not modelled. *)
From Coq Require Import ZArith String List Bool Ascii.
From Verif Require Import Base Op Norm Hedge Shape Discrete Defuzz Aggregated Text Function Rule Var Activation Engine Factory Fll Fis Grid Cpp.
Import ListNotations.
Local Open Scope string_scope.

(** the colors (RScriptExporter.h:43-45) *)
Record rcolors := mkColors { c_minimum : string; c_maximum : string; c_contour : string }.
(** RScriptExporter.cpp:29-33 *)
Definition default_colors : rcolors := mkColors "yellow" "red" "black".
(** what has been written to a stream piece by piece *)
Definition spelled (pieces : list string) : string := fold_right String.append "" pieces.
Definition nl : string := char Fll.newline.

Section Rscript.
Context {T : Type} `{S : Scalar T}.
(** fuzzylite::decimals(), fuzzylite::library(), IntegralDefuzzifier::defaultResolution() *)
Variables (d : nat) (library : string) (resolution : Z) (colors : rcolors).
Variable drain : drainer T.

(** RScriptExporter.cpp:211-219; the indent and the separator of FllExporter are its default ones (/repo/fuzzylite/imex/FllExporter.h:54) *)
Definition r_header (e : engine T) : list string :=
  (["#Code automatically generated with "; library; "."; nl; nl; "library(ggplot2);"; nl; nl; "engine.name = "; dq; e_name e; dq; nl] ++
   (if sempty (e_description e) then [] else ["engine.description = "; dq; e_description e; dq; nl]) ++
   ["engine.fll = "; dq; fll_export d resolution "  " (char Fll.newline) e; dq; nl; nl])%list.
(** RScriptExporter.cpp:229-237, 239-247 *)
Definition r_surface (plot x y z : string) : list string :=
  [plot; " = ggplot(engine.df, aes("; x; ", "; y; ")) + "; nl;
   "    geom_tile(aes(fill="; z; ")) + "; nl;
   "    scale_fill_gradient(low="; dq; c_minimum colors; dq; ", high="; dq; c_maximum colors; dq; ") + "; nl;
   "    stat_contour(aes(x="; x; ", y="; y; ", z="; z; "), color="; dq; c_contour colors; dq; ") + "; nl;
   "    ggtitle("; dq; "("; x; ", "; y; ") = "; z; dq; ")"; nl; nl].
(** RScriptExporter.cpp:250-256, 258-265 *)
Definition r_line (plot x z : string) (flipped : bool) : list string :=
  ([plot; " = ggplot(engine.df, aes("; x; ", "; z; ")) + "; nl;
    "    geom_line(aes(color="; z; "), size=3, lineend="; dq; "round"; dq; ", linejoin="; dq; "mitre"; dq; ") + "; nl;
    "    scale_color_gradient(low="; dq; c_minimum colors; dq; ", high="; dq; c_maximum colors; dq; ") + "; nl] ++
   (if flipped then ["    coord_flip() + "; nl; "    ggtitle("; dq; z; " vs "; x; dq; ")"; nl; nl]
    else ["    ggtitle("; dq; x; " vs "; z; dq; ")"; nl; nl]))%list.
(** the names of the two plots of the output variable at position [i] in the list *)
Definition r_names (same : bool) (i : nat) : string * string :=
  let n := str_int (Z.of_nat (Datatypes.S i)) in
  if same then ("engine.plot.i1_o" ++ n, "engine.plot.o" ++ n ++ "_i1") else ("engine.plot.i1i2_o" ++ n, "engine.plot.i2i1_o" ++ n).
(** one round of RScriptExporter.cpp:226-268: what is written to the script, and to [arrangeGrob] *)
Definition r_plot (same : bool) (a b : string) (i : nat) (z : string) : list string * list string :=
  let '(p, q) := r_names same i in
  ((if same then r_line p a z false ++ r_line q a z true else r_surface p a b z ++ r_surface q b a z)%list, [p; ", "; q; ", "]).
(** RScriptExporter.cpp:221-278; [same]: both input variables are one object; [zs]: the names of the output variables *)
Definition r_plots (same : bool) (a b : string) (zs : list string) : list string :=
  let rounds := map (fun p : nat * string => r_plot same a b (fst p) (snd p)) (combine (seq 0 (length zs)) zs) in
  (concat (map fst rounds) ++
   ["if (require(gridExtra)) {"; nl; "    engine.plots = "; "arrangeGrob("] ++ concat (map snd rounds) ++ ["ncol=2, top=engine.name)"; nl;
    "    ggsave(paste0(engine.name, "; dq; ".pdf"; dq; "), engine.plots)"; nl; "    if (require(grid)) {"; nl; "        grid.newpage()"; nl; "        grid.draw(engine.plots)"; nl; "    }"; nl; "}"; nl])%list.
(** RScriptExporter.cpp:182, 184-188 and 201-208 around the dataset *)
Definition r_dataset (data : string) : list string :=
  ["engine.fld = "; dq; data; dq; nl; nl; "engine.df = read.delim(textConnection(engine.fld), header=TRUE, sep="; dq; " "; dq; ", strip.white=TRUE)"; nl; nl].
Definition r_frame (same : bool) (a b : string) (zs : list string) (e : engine T) (rows : list (list T)) : string :=
  spelled (r_header e ++ r_dataset (fld_text (fld_new " ") d e rows) ++ r_plots same a b zs)%list.
(** the input variables at two positions *)
Definition r_pair (a b : nat) (e : engine T) : option (variable T * variable T) :=
  match nth_error (e_inputs e) a, nth_error (e_inputs e) b with Some x, Some y => Some (x, y) | _, _ => None end.
(** RScriptExporter.cpp:79-90, 167-189.  [a] and [b] are the positions of the input variables (other objects are not modelled: [UB]);
    [zs]: the names of the output variables *)
Definition r_script (a b : nat) (values : Z) (sc : scope) (zs : list string) (e : engine T) : engine T * res string :=
  match r_pair a b e with
  | None => (e, UB)
  | Some (x, y) =>
    let active := map (fun i => (Nat.eqb i a || Nat.eqb i b)%bool) (seq 0 (length (e_inputs e))) in
    match fld_grid drain (fld_new " ") values sc active e with
    | ((e', rows), Ok _) => (e', Ok (r_frame (Nat.eqb a b) (v_name x) (v_name y) zs e rows))
    | ((e', _), Throw err) => (e', Throw err) | ((e', _), UB) => (e', UB) | ((e', _), Diverge) => (e', Diverge)
    end
  end.
(** RScriptExporter.cpp:92-102, 191-209: the dataset for the lines of a stream *)
Definition r_script_lines (a b : nat) (lines : list string) (zs : list string) (e : engine T) : engine T * res string :=
  match r_pair a b e with
  | None => (e, UB)
  | Some (x, y) =>
    match fld_lines drain (fld_new " ") true lines e [] with
    | ((e', rows), Ok _) => (e', Ok (r_frame (Nat.eqb a b) (v_name x) (v_name y) zs e rows))
    | ((e', _), Throw err) => (e', Throw err) | ((e', _), UB) => (e', UB) | ((e', _), Diverge) => (e', Diverge)
    end
  end.
(** RScriptExporter.cpp:146-165: the dataset is in a file *)
Definition r_script_file (a b : nat) (path : string) (zs : list string) (e : engine T) : res string :=
  match r_pair a b e with
  | None => UB
  | Some (x, y) =>
    Ok (spelled (r_header e ++
      ["engine.fldFile = "; dq; path; dq; nl; "if (require(data.table)) {"; nl;
       "    engine.df = data.table::fread(engine.fldFile, sep="; dq; "auto"; dq; ", header="; dq; "auto"; dq; ")"; nl;
       "} else {"; nl; "    engine.df = read.table(engine.fldFile, header=TRUE)"; nl; "}"; nl; nl] ++
      r_plots (Nat.eqb a b) (v_name x) (v_name y) zs)%list)
  end.
(** RScriptExporter.cpp:69-77 *)
Definition r_export (e : engine T) : engine T * res string :=
  match e_inputs e, e_outputs e with
  | [], _ => (e, Throw EExport)
  | _, [] => (e, Throw EExport)
  | _, _ => r_script 0 (1 mod length (e_inputs e)) 1024 AllVariables (map (fun o => v_name (o_var o)) (e_outputs e)) e
  end.
End Rscript.
