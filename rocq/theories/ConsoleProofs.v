(** The command line of the tool. *)
From Coq Require Import ZArith String List Bool Ascii Lia Permutation.
From Verif Require Import Base Op Text Var Activation Engine Grid Fll Fis Fcl Console SpecConsole.
Import ListNotations.
Local Open Scope string_scope.

Lemma get_set k k' v m : option_get k (option_set k' v m) = if String.eqb k k' then Some v else option_get k m.
Proof.
  induction m as [|[a b] m IH]; simpl; [reflexivity|]. destruct (String.eqb k' a) eqn:E; simpl.
  - apply String.eqb_eq in E. subst. now destruct (String.eqb k a).
  - rewrite IH. destruct (String.eqb k a) eqn:F; auto. apply String.eqb_eq in F. subst. now rewrite String.eqb_sym, E.
Qed.
Lemma set_keys k v m x : In x (map fst (option_set k v m)) <-> x = k \/ In x (map fst m).
Proof.
  induction m as [|[a b] m IH]; simpl; [intuition|]. destruct (String.eqb k a) eqn:E; simpl.
  - apply String.eqb_eq in E. subst. intuition.
  - rewrite IH. intuition.
Qed.
Lemma set_nodup k v m : NoDup (map fst m) -> NoDup (map fst (option_set k v m)).
Proof.
  induction m as [|[a b] m IH]; simpl; intro N; [repeat constructor; simpl; tauto|]. inversion_clear N. destruct (String.eqb k a) eqn:E; simpl.
  - apply String.eqb_eq in E. subst. now constructor.
  - constructor; auto. rewrite set_keys. intros [->|I]; [now rewrite String.eqb_refl in E|auto].
Qed.
Lemma pairs_ind (P : list string -> Prop) : P [] -> (forall x, P [x]) -> (forall x y l, P l -> P (x :: y :: l)) -> forall l, P l.
Proof. intros A B C. fix F 1. intros [|x [|y l]]; [exact A|exact (B x)|exact (C x y l (F l))]. Qed.
Lemma read_get k : forall args m, option_get k (read_pairs args m) = match given k args with Some v => Some v | None => option_get k m end.
Proof.
  induction args as [|x|x v args IH] using pairs_ind; intro m; try reflexivity. cbn [read_pairs given]. rewrite IH, get_set, (String.eqb_sym x k).
  destruct (given k args); auto. now destruct (String.eqb k x).
Qed.
Lemma read_keys x : forall args m, In x (map fst (read_pairs args m)) <-> In x (keys_of args) \/ In x (map fst m).
Proof. induction args as [|y|y v args IH] using pairs_ind; intro m; simpl; try tauto. rewrite IH, set_keys. intuition. Qed.
Lemma read_nodup : forall args m, NoDup (map fst m) -> NoDup (map fst (read_pairs args m)).
Proof. induction args as [|y|y v args IH] using pairs_ind; intros m N; simpl; auto. apply IH. now apply set_nodup. Qed.
Definition table (args : list string) : options := read_pairs args [].
Lemma table_get k args : option_get k (table args) = given k args.
Proof. unfold table. rewrite read_get. simpl. now destruct (given k args). Qed.
Lemma table_keys x args : In x (map fst (table args)) <-> In x (keys_of args).
Proof. unfold table. rewrite read_keys. simpl. tauto. Qed.
Lemma table_nodup args : NoDup (map fst (table args)).
Proof. apply read_nodup. constructor. Qed.
Lemma given_key k args : In k (keys_of args) <-> given k args <> None.
Proof.
  induction args as [|y|y v args IH] using pairs_ind; simpl; try tauto. destruct (given k args) eqn:G.
  - split; [discriminate|]. intros _. right. now apply IH.
  - destruct (String.eqb y k) eqn:E.
    + split; [discriminate|]. intros _. left. now apply String.eqb_eq.
    + split; [|congruence]. intros [->|I]; [now rewrite String.eqb_refl in E|]. now apply IH in I.
Qed.
Lemma get_in k v m : NoDup (map fst m) -> (option_get k m = Some v <-> In (k, v) m).
Proof.
  induction m as [|[a b] m IH]; simpl; intro N; [split; [discriminate|tauto]|]. inversion_clear N as [|? ? NI ND]. destruct (String.eqb k a) eqn:E.
  - apply String.eqb_eq in E. subst. split; [intro X; injection X as ->; auto|]. intros [X|I]; [now injection X as ->|]. destruct NI. apply (in_map fst) in I. exact I.
  - rewrite IH by auto. split; auto. intros [X|I]; auto. injection X as -> ->. now rewrite String.eqb_refl in E.
Qed.
Lemma same_table args args' : (forall k, given k args = given k args') -> Permutation (table args) (table args').
Proof.
  intro H. apply NoDup_Permutation; try (apply (NoDup_map_inv fst), table_nodup). intros [k v].
  rewrite <- !get_in by apply table_nodup. now rewrite !table_get, H.
Qed.

Section Console.
Context {T : Type} `{S : Scalar T}.
Variable drain : drainer T.
Variables (resolution : Z) (library version : string) (what : exc -> string) (java : nat -> engine T -> res string).
Notation run := (console_process drain resolution library version what java).
Notation main := (console_main drain resolution library version what java).
Notation import_as := (import_as (T := T) resolution).
Notation export_as := (export_as (T := T) resolution library version java).

Lemma process_known m m' w : (forall k, In k available_options -> option_get k m = option_get k m') -> run m w = run m' w.
Proof.
  intro H. unfold console_process, with_decimals, source, target, convert, fld_options.
  rewrite (H "-i"), (H "-if"), (H "-o"), (H "-of"), (H "-example"), (H "-decimals"), (H "-d"), (H "-values"), (H "-scope"), (H "-dheader"), (H "-dinputs") by (simpl; tauto). reflexivity.
Qed.
Lemma process_get m m' w : (forall k, option_get k m = option_get k m') -> run m w = run m' w.
Proof. intro H. apply process_known. auto. Qed.
Lemma parse_table args : Nat.even (List.length args) = true -> console_parse args =
  match table args with
  | [(k, v)] => match k with "" => Throw EOutOfRange | String c _ => Ok (if Ascii.eqb c "-" then [(k, v)] else option_set "-o" v (option_set "-i" k [(k, v)])) end
  | m => if forallb (fun p => existsb (String.eqb (fst p)) available_options) m then Ok m else Throw EConfiguration
  end.
Proof. intro E. unfold console_parse, table. rewrite <- Nat.negb_even, E. reflexivity. Qed.
Lemma forallb_perm {A} (f : A -> bool) l l' : Permutation l l' -> forallb f l = forallb f l'.
Proof. induction 1; simpl; auto; try congruence. now rewrite !andb_assoc, (andb_comm (f x)). Qed.
Definition prepared (args : list string) (w : world) : world * res unit :=
  match console_parse args with Ok m => run m w | Throw err => (w, Throw err) | UB => (w, UB) | Diverge => (w, Diverge) end.
Definition ended (p : world * res unit) : world * status :=
  match snd p with Ok _ => (fst p, Success) | Throw err => (print (what err ++ char newline ++ char newline) (fst p), Failure) | _ => (fst p, Undefined) end.
Lemma main_prepared args w : 2 <= List.length args -> converting args -> main args w = ended (prepared args w).
Proof.
  intros L C. destruct args as [|a [|b args]]; simpl in L; try lia. destruct C as (C1 & C2 & C3). apply String.eqb_neq in C1, C2, C3.
  unfold console_main, ended, prepared. cbn [existsb subcommands]. rewrite C1, C2, C3. cbn [orb]. destruct (console_parse _); simpl; auto. destruct (run a0 w) as [w' [| | |]]; reflexivity. Qed.
Lemma prepared_given args args' w : Nat.even (List.length args) = true -> Nat.even (List.length args') = true -> (forall k, given k args = given k args') -> prepared args w = prepared args' w.
Proof.
  intros E E' H. unfold prepared. rewrite !parse_table by auto. pose proof (same_table _ _ H) as P.
  assert (G : forall k, option_get k (table args) = option_get k (table args')) by (intro; now rewrite !table_get).
  pose proof (forallb_perm (fun p : string * string => existsb (String.eqb (fst p)) available_options) _ _ P) as F.
  destruct (table args) as [|[k v] [|q m]] eqn:A.
  - apply Permutation_nil in P. now rewrite P.
  - apply Permutation_length_1_inv in P. now rewrite P.
  - destruct (table args') as [|[k' v'] [|q' m']] eqn:B; try (apply Permutation_length in P; simpl in P; lia).
    cbv beta iota zeta. rewrite F. match goal with |- context [if ?b then _ else _] => destruct b end; auto. now apply process_get.
Qed.
Theorem order_free args args' w : converting args -> converting args' -> 2 <= List.length args -> 2 <= List.length args' -> Nat.even (List.length args) = true -> Nat.even (List.length args') = true ->
  (forall k, given k args = given k args') -> main args w = main args' w.
Proof. intros C C' L L' E E' H. rewrite !main_prepared by auto. f_equal. now apply prepared_given. Qed.

(** one key only *)
Lemma table_single args i o : given i args = Some o -> (forall k, In k (keys_of args) -> k = i) -> table args = [(i, o)].
Proof.
  intros G K. pose proof (table_nodup args) as N. assert (I : In (i, o) (table args)) by (apply get_in; auto; now rewrite table_get).
  assert (A : forall p, In p (table args) -> fst p = i) by (intros p J; apply K, table_keys; now apply in_map).
  destruct (table args) as [|p [|q m]]; [destruct I| |].
  - destruct I as [->|[]]. reflexivity.
  - exfalso. inversion_clear N as [|? ? NI ND]. apply NI. left. rewrite (A p), (A q); simpl; auto.
Qed.
Lemma given_even i args : given i args <> None -> 2 <= List.length args.
Proof. destruct args as [|a [|b l]]; simpl; try tauto; lia. Qed.
Theorem two_names_convert args i o w : converting args -> Nat.even (List.length args) = true -> two_names args i o -> main args w = main ["-i"; i; "-o"; o] w.
Proof.
  intros CV E (G & K & c & r & -> & NC). rewrite !main_prepared; [|simpl; lia|simpl; repeat split; discriminate|apply (given_even (String c r)); congruence|exact CV]. f_equal. unfold prepared.
  rewrite parse_table by auto. rewrite (table_single _ _ _ G K). rewrite (parse_table ["-i"; String c r; "-o"; o]) by reflexivity.
  destruct (Ascii.eqb c "-") eqn:Q; [now apply Ascii.eqb_eq in Q|].
  change (table ["-i"; String c r; "-o"; o]) with [("-i", String c r); ("-o", o)].
  change (forallb _ [("-i", String c r); ("-o", o)]) with true. cbn match.
  apply process_known. intros k I. rewrite !get_set. cbn [option_get].
  assert (NK : String.eqb k (String c r) = false) by (simpl in I; repeat destruct I as [<-|I]; try (cbn [String.eqb]; rewrite Ascii.eqb_sym, Q; reflexivity); destruct I).
  rewrite NK. destruct (String.eqb k "-o") eqn:O; destruct (String.eqb k "-i") eqn:J; auto. apply String.eqb_eq in O, J. congruence.
Qed.

Lemma console_parse_odd args : Nat.even (List.length args) = false -> console_parse args = Throw EConfiguration.
Proof. intro E. unfold console_parse. now rewrite <- Nat.negb_even, E. Qed.
Lemma nothing_given m w : option_get "-example" m = None -> option_get "-i" m = None -> option_get "-decimals" m = None -> run m w = (w, Throw EConfiguration).
Proof. intros A B C. unfold console_process, with_decimals. rewrite C. unfold source. rewrite A, B. reflexivity. Qed.
Theorem unknown_rejected args w k : converting args -> 2 <= List.length args -> In k (keys_of args) -> ~ In k documented_options -> (forall i o, ~ two_names args i o) ->
  exists x, main args w = (print (what x ++ char newline ++ char newline) w, Failure).
Proof.
  intros CV L I U N. rewrite main_prepared by auto. unfold prepared. destruct (Nat.even (List.length args)) eqn:E; [|rewrite console_parse_odd by auto; now exists EConfiguration].
  rewrite parse_table by auto. pose proof (proj2 (table_keys k args) I) as IT. destruct (table args) as [|[k' v] [|q m]] eqn:A; [destruct IT| |].
  - destruct IT as [K|[]]. simpl in K. subst k'. destruct k as [|c r]; [now exists EOutOfRange|]. destruct (Ascii.eqb c "-") eqn:Q.
    + exists EConfiguration. rewrite nothing_given; auto; cbn [option_get]; match goal with |- (if ?b then _ else _) = _ => destruct b eqn:F end; auto; apply String.eqb_eq in F; destruct U; rewrite <- F; simpl; tauto.
    + exfalso. apply (N (String c r) v). repeat split.
      * now rewrite <- table_get, A; cbn [option_get]; rewrite String.eqb_refl.
      * intros x J. apply table_keys in J. rewrite A in J. destruct J as [J|[]]; auto.
      * exists c, r. split; auto. intro X. subst. now rewrite Ascii.eqb_refl in Q.
  - exists EConfiguration. cbv beta iota zeta.
    assert (F : forallb (fun p : string * string => existsb (String.eqb (fst p)) available_options) ((k', v) :: q :: m) = false).
    { apply not_true_iff_false. intro F. rewrite forallb_forall in F. apply in_map_iff in IT. destruct IT as [[a b] [X J]]. simpl in X. subst a.
      specialize (F _ J). apply existsb_exists in F. destruct F as [y [Y F]]. apply String.eqb_eq in F. simpl in F. subst y. exact (U Y). }
    rewrite F. reflexivity.
Qed.

Lemma decimals_files m w w' : with_decimals (T := T) m w = Ok w' -> w_files w' = w_files w.
Proof.
  unfold with_decimals. destruct (option_get "-decimals" m); [|intro X; now injection X as <-]. destruct (to_int s); simpl; try discriminate.
  destruct (a <? 0)%Z; [discriminate|]. intro X; now injection X as <-.
Qed.
Lemma process_files m w g : w_files (fst (run m w)) g <> w_files w g -> option_get "-o" m = Some g.
Proof.
  unfold console_process. destruct (with_decimals m w) as [w1| | |] eqn:D; simpl; try tauto. rewrite <- (decimals_files _ _ _ D).
  destruct (source _ m w1) as [[text inf]| | |]; simpl; try tauto. unfold target.
  assert (X : forall f outf, option_get "-o" m = Some f \/ f = "" -> w_files (fst (if sempty f then let '(s, _, r) := convert drain resolution library version what java text inf outf m false w1 in (print s w1, r)
     else if w_blocked w1 f then (w1, Throw EConfiguration)
     else let w := write_file f "" w1 in let '(s, echo, r) := convert drain resolution library version what java text inf outf m true w in (print echo (write_file f s w), r))) g <> w_files w1 g -> option_get "-o" m = Some g).
  { intros f outf O. destruct (sempty f) eqn:SE; [destruct (convert _ _ _ _ _ _ _ _ _ _ _ _) as [[? ?] ?]; simpl; tauto|]. destruct (w_blocked w1 f); simpl; [tauto|].
    destruct (convert _ _ _ _ _ _ _ _ _ _ _ _) as [[s ec] r]. simpl. destruct (String.eqb g f) eqn:E; [|tauto].
    apply String.eqb_eq in E. subst g. intros _. destruct O as [O| ->]; [exact O|discriminate]. }
  destruct (option_get "-o" m) as [f|] eqn:O; destruct (option_get "-of" m) as [y|]; simpl; try (destruct (extension f) as [y|]; simpl; try tauto); intro H.
  - exact (X f y (or_introl eq_refl) H).
  - exact (X f y (or_introl eq_refl) H).
  - apply (X "" y); auto.
  - tauto.
Qed.
Lemma print_files s w : w_files (print s w) = w_files w. Proof. reflexivity. Qed.
Theorem nothing_else args w f : converting args -> w_files (fst (main args w)) f <> w_files w f -> given "-o" args = Some f \/ exists i, two_names args i f.
Proof.
  intro CV. destruct (Nat.leb 2 (List.length args)) eqn:L; [apply Nat.leb_le in L|destruct args as [|a [|b l]]; simpl in *; try discriminate; tauto].
  rewrite main_prepared by auto. intro H. assert (P : w_files (fst (prepared args w)) f <> w_files w f).
  { unfold ended in H. destruct (snd (prepared args w)); simpl in H; auto. } clear H. unfold prepared in P.
  destruct (Nat.even (List.length args)) eqn:E; [|rewrite console_parse_odd in P by auto; simpl in P; tauto]. rewrite parse_table in P by auto.
  destruct (table args) as [|[k v] [|q m]] eqn:A.
  - simpl in P. tauto.
  - destruct k as [|c r]; [simpl in P; tauto|]. destruct (Ascii.eqb c "-") eqn:Q; apply process_files in P.
    + left. now rewrite <- table_get, A.
    + right. rewrite get_set in P. cbn [String.eqb] in P. replace (String.eqb "-o" "-o") with true in P by reflexivity. injection P as ->. exists (String c r). repeat split.
      * now rewrite <- table_get, A; cbn [option_get]; rewrite String.eqb_refl.
      * intros x J. apply table_keys in J. rewrite A in J. destruct J as [J|[]]; auto.
      * exists c, r. split; auto. intro X. subst. now rewrite Ascii.eqb_refl in Q.
  - left. cbv beta iota zeta in P. match type of P with context [if ?b then _ else _] => destruct b end; [|simpl in P; tauto]. apply process_files in P. now rewrite <- table_get, A.
Qed.

(** the conversion *)
Lemma extension_ending f x : extension f = Some x <-> ending f x.
Proof.
  assert (N : forall s, extension s = None <-> forall a b, s <> a ++ "." ++ b).
  { induction s as [|c s IH]; simpl.
    - split; auto. intros _ a b. destruct a; discriminate.
    - destruct (extension s) eqn:E.
      + split; [discriminate|]. intro H. assert (exists a b, s = a ++ "." ++ b) as (a & b & ->).
        { clear - E. revert s0 E. induction s as [|c' s IH]; simpl; intros y E; [discriminate|]. destruct (extension s) eqn:F.
          - destruct (IH _ eq_refl) as (a & b & ->). now exists (String c' a), b.
          - destruct (Ascii.eqb c' ".") eqn:G; [|discriminate]. apply Ascii.eqb_eq in G. subst. now exists "", s. }
        now destruct (H (String c a) b).
      + destruct (Ascii.eqb c ".") eqn:G.
        * apply Ascii.eqb_eq in G. subst. split; [discriminate|]. intro H. now destruct (H "" s).
        * split; auto. intros _ a b X. destruct a as [|c' a]; simpl in X; injection X as X1 X2.
          -- subst. now rewrite Ascii.eqb_refl in G.
          -- now apply (proj1 IH eq_refl a b). }
  unfold ending. revert x. induction f as [|c f IH]; intro x; simpl.
  - split; [discriminate|]. intros ([|] & X & _); discriminate.
  - destruct (extension f) as [y|] eqn:E.
    + split.
      * intro X. injection X as ->. destruct (proj1 (IH x) eq_refl) as (b & -> & F). now exists (String c b).
      * intros (b & X & F). destruct b as [|c' b]; simpl in X; injection X as X1 X2.
        -- subst. apply N in F. congruence.
        -- apply IH. now exists b.
    + destruct (Ascii.eqb c ".") eqn:G.
      * apply Ascii.eqb_eq in G. subst. split; [intro X; injection X as ->; exists ""; split; auto; now apply N|]. intros (b & X & F).
        destruct b as [|c' b]; simpl in X; [injection X as X2; now subst|injection X as X1 X2]. exfalso. assert (None = Some x) by (apply IH; now exists b). discriminate.
      * split; [discriminate|]. intros (b & X & F). destruct b as [|c' b]; simpl in X; injection X as X1 X2; [subst; now rewrite Ascii.eqb_refl in G|].
        exfalso. assert (None = Some x) by (apply IH; now exists b). discriminate.
Qed.
Lemma well_formed_run args w : args <> [] -> well_formed args -> prepared args w = run (table args) w.
Proof.
  intros NE [E K]. unfold prepared. rewrite parse_table by auto. destruct (table args) as [|[k v] [|q m]] eqn:A.
  - reflexivity.
  - assert (I : In k documented_options) by (apply K, table_keys; rewrite A; simpl; auto). simpl in I. repeat destruct I as [<-|I]; try reflexivity. destruct I.
  - cbv beta iota zeta. assert (F : forallb (fun p : string * string => existsb (String.eqb (fst p)) available_options) ((k, v) :: q :: m) = true).
    { apply forallb_forall. intros [a b] J. apply existsb_exists. exists a. split; [|apply String.eqb_refl]. apply K, table_keys. rewrite A. apply (in_map fst) in J. exact J. }
    rewrite F. reflexivity.
Qed.
Lemma request_run args w d src inf dst outf text : request (T := T) args w d src inf dst outf text ->
  main args w = ended (let w := write_file dst "" (set_decimals d w) in
    let '(s, echo, r) := convert drain resolution library version what java (text_of (getlines text)) inf outf (table args) true w in (print echo (write_file dst s w), r)).
Proof.
  intros [F D X I W A O N B Fr]. assert (CV : converting args).
  { destruct args as [|a [|b l]]; try exact Logic.I; try discriminate I. destruct F as [_ F]. specialize (F a (or_introl eq_refl)). simpl in F. simpl. repeat destruct F as [<-|F]; try (repeat split; discriminate). destruct F. }
  rewrite main_prepared by (auto; apply (given_even "-i"); congruence). f_equal. rewrite well_formed_run; auto; [|intro; subst; discriminate].
  unfold console_process. assert (WD : with_decimals (T := T) (table args) w = Ok (set_decimals d w)).
  { unfold with_decimals. rewrite table_get. unfold decimals_of in D. destruct (given "-decimals" args) as [s|]; [|subst d; now destruct w].
    rewrite D. simpl. destruct (Z.of_nat d <? 0)%Z eqn:Q; [apply Z.ltb_lt in Q; lia|]. now rewrite Nat2Z.id. }
  rewrite WD. assert (SO : source (T := T) resolution (table args) (set_decimals d w) = Ok (text_of (getlines text), inf)).
  { unfold source. rewrite !table_get, X, I. cbn [w_files set_decimals]. rewrite W. unfold format_of in A. destruct (given "-if" args); [now subst|]. apply extension_ending in A. now rewrite A. }
  rewrite SO. assert (TA : target (table args) = Ok (dst, outf)).
  { unfold target. rewrite !table_get, O. unfold format_of in B. destruct (given "-of" args); [now subst|]. apply extension_ending in B. now rewrite B. }
  rewrite TA. cbn [rbind]. destruct (sempty dst) eqn:SE; [destruct dst; [congruence|discriminate]|]. cbn [w_blocked set_decimals]. now rewrite Fr.
Qed.
Theorem converts args w d src inf dst outf text e out : request (T := T) args w d src inf dst outf text -> outf <> "fld" ->
  import_as d inf (text_of (getlines text)) = Ok e -> export_as d outf e = Ok out ->
  exists w', main args w = (w', Success) /\ only_written dst out w w' /\ w_printed w' = w_printed w.
Proof.
  intros R NF I X. rewrite (request_run _ _ _ _ _ _ _ _ R). unfold convert. cbn [w_decimals write_file set_decimals]. rewrite I. destruct (String.eqb outf "fld") eqn:E; [now apply String.eqb_eq in E|].
  rewrite X. eexists. split; [reflexivity|]. split.
  - intro g. simpl. destruct (String.eqb g dst); reflexivity.
  - simpl. clear. induction (w_printed w); simpl; congruence.
Qed.
Theorem fails args w d src inf dst outf text x : request (T := T) args w d src inf dst outf text -> outf <> "fld" ->
  (do e <- import_as d inf (text_of (getlines text)); export_as d outf e) = Throw x ->
  exists w', main args w = (w', Failure) /\ only_written dst "" w w' /\ w_printed w' = w_printed w ++ what x ++ char newline ++ char newline.
Proof.
  intros R NF I. rewrite (request_run _ _ _ _ _ _ _ _ R). unfold convert. cbn [w_decimals write_file set_decimals]. destruct (String.eqb outf "fld") eqn:E; [now apply String.eqb_eq in E|].
  assert (AP : forall s, s ++ "" = s) by (induction s; simpl; congruence).
  destruct (import_as d inf (text_of (getlines text))) as [e|y| |]; simpl in I; try discriminate; [rewrite I|injection I as ->]; (eexists; split; [reflexivity|]; split; [intro g; simpl; destruct (String.eqb g dst); reflexivity|simpl; now rewrite AP]).
Qed.
(** datasets *)
Theorem dataset_file args w d src inf dst text e data rows e' f : request (T := T) args w d src inf dst "fld" text -> given "-d" args = Some f -> f <> dst -> w_files w f = Some data ->
  import_as d inf (text_of (getlines text)) = Ok e -> fld_lines drain (dataset args) true (getlines data) e [] = ((e', rows), Ok tt) ->
  exists w', main args w = (w', Success) /\ only_written dst (fld_text (dataset args) d e rows) w w' /\ w_printed w' = w_printed w.
Proof.
  intros R G NF W I X. rewrite (request_run _ _ _ _ _ _ _ _ R). unfold convert. cbn [w_decimals write_file set_decimals]. rewrite I.
  assert (FO : fld_options (table args) = dataset args) by (unfold fld_options, dataset; now rewrite !table_get). rewrite FO, table_get, G. cbn [String.eqb]. replace (String.eqb "fld" "fld") with true by reflexivity.
  cbn [w_files write_file set_decimals]. destruct (String.eqb f dst) eqn:E; [now apply String.eqb_eq in E|]. rewrite W, X.
  eexists. split; [reflexivity|]. split; [intro g; simpl; destruct (String.eqb g dst); reflexivity|simpl; clear; induction (w_printed w); simpl; congruence].
Qed.
Theorem dataset_grid args w d src inf dst text e n sc rows e' v : request (T := T) args w d src inf dst "fld" text -> given "-d" args = None -> given "-values" args = Some v -> to_int (T := T) v = Ok n ->
  match sc with AllVariables => given "-scope" args = Some "AllVariables" | EachVariable => given "-scope" args = None \/ given "-scope" args = Some "EachVariable" end ->
  import_as d inf (text_of (getlines text)) = Ok e -> fld_grid drain (dataset args) n sc (map (fun _ => true) (e_inputs e)) e = ((e', rows), Ok tt) ->
  exists w', main args w = (w', Success) /\ only_written dst (fld_text (dataset args) d e rows) w w' /\ w_printed w' = w_printed w.
Proof.
  intros R G V N SC I X. rewrite (request_run _ _ _ _ _ _ _ _ R). unfold convert. cbn [w_decimals write_file set_decimals]. rewrite I.
  assert (FO : fld_options (table args) = dataset args) by (unfold fld_options, dataset; now rewrite !table_get). rewrite FO, !table_get, G, V, N. replace (String.eqb "fld" "fld") with true by reflexivity.
  assert (Y : match given "-scope" args with None => Ok EachVariable | Some s => if String.eqb s "AllVariables" then Ok AllVariables else if String.eqb s "EachVariable" then Ok EachVariable else Throw EExport end = Ok sc)
    by (destruct sc; [destruct SC as [-> | ->]|rewrite SC]; reflexivity).
  rewrite Y, X. eexists. split; [reflexivity|]. split; [intro g; simpl; destruct (String.eqb g dst); reflexivity|simpl; clear; induction (w_printed w); simpl; congruence].
Qed.

(** the same, by formats *)
Lemma reads_import d text inf r : reads resolution d text inf r -> import_as d inf (text_of (getlines text)) = r.
Proof.
  intros []; try reflexivity. unfold Console.import_as. apply String.eqb_neq in H, H0, H1. now rewrite H, H0, H1.
Qed.
Lemma writes_export d e outf r : writes resolution library version java d e outf r -> outf <> "fld" /\ export_as d outf e = r.
Proof.
  intros []; (split; [discriminate||assumption|]); try reflexivity. unfold Console.export_as. apply String.eqb_neq in H, H0, H1, H2, H3. now rewrite H, H0, H1, H2, H3.
Qed.
Theorem converts_formats args w d src inf dst outf text e out : request (T := T) args w d src inf dst outf text ->
  reads resolution d text inf (Ok e) -> writes resolution library version java d e outf (Ok out) ->
  exists w', main args w = (w', Success) /\ only_written dst out w w' /\ w_printed w' = w_printed w.
Proof. intros R I X. apply reads_import in I. apply writes_export in X as [N X]. eapply converts; eauto. Qed.
Theorem fails_formats args w d src inf dst outf text x : request (T := T) args w d src inf dst outf text -> outf <> "fld" ->
  reads resolution d text inf (Throw x) \/ (exists e, reads resolution d text inf (Ok e) /\ writes resolution library version java d e outf (Throw x)) ->
  exists w', main args w = (w', Failure) /\ only_written dst "" w w' /\ w_printed w' = w_printed w ++ what x ++ char newline ++ char newline.
Proof.
  intros R N [I|(e & I & X)]; eapply fails; eauto; apply reads_import in I; rewrite I; [reflexivity|]. apply writes_export in X as [_ X]. simpl. now rewrite X.
Qed.
Theorem dataset_file_formats args w d src inf dst text e data rows e' f : request (T := T) args w d src inf dst "fld" text -> given "-d" args = Some f -> f <> dst -> w_files w f = Some data ->
  reads resolution d text inf (Ok e) -> fld_lines drain (dataset args) true (getlines data) e [] = ((e', rows), Ok tt) ->
  exists w', main args w = (w', Success) /\ only_written dst (fld_text (dataset args) d e rows) w w' /\ w_printed w' = w_printed w.
Proof. intros R G N W I. apply reads_import in I. eapply dataset_file; eauto. Qed.
Theorem dataset_grid_formats args w d src inf dst text e n sc rows e' v : request (T := T) args w d src inf dst "fld" text -> given "-d" args = None -> given "-values" args = Some v -> to_int (T := T) v = Ok n ->
  match sc with AllVariables => given "-scope" args = Some "AllVariables" | EachVariable => given "-scope" args = None \/ given "-scope" args = Some "EachVariable" end ->
  reads resolution d text inf (Ok e) -> fld_grid drain (dataset args) n sc (map (fun _ => true) (e_inputs e)) e = ((e', rows), Ok tt) ->
  exists w', main args w = (w', Success) /\ only_written dst (fld_text (dataset args) d e rows) w w' /\ w_printed w' = w_printed w.
Proof. intros R G V N SC I. apply reads_import in I. eapply dataset_grid; eauto. Qed.
End Console.
