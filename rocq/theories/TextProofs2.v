(** trim, validName, and reading back printed numbers. *)
From Coq Require Import ZArith List Bool String Ascii Arith Lia Znat.
From Verif Require Import Base Op Text SpecText TextProofs.
Import ListNotations.
Local Open Scope string_scope.

(** * trim *)
Lemma at_in s i : (0 <= i < Z.of_nat (length s))%Z -> exists c, at_ s i = Ok c /\ get (Z.to_nat i) s = Some c.
Proof.
  intro H. unfold at_. destruct (i <? 0)%Z eqn:E; [apply Z.ltb_lt in E; lia|]. assert (L : (Z.to_nat i < length s)%nat) by lia. clear E.
  revert L. generalize (Z.to_nat i). clear H. induction s as [|c s IH]; simpl; intros n L; [lia|]. destruct n; [eauto|]. apply IH. lia.
Qed.
Definition space_at (s : string) (i : Z) : Prop := exists c, get (Z.to_nat i) s = Some c /\ is_space c = true.
Definition solid_at (s : string) (i : Z) : Prop := exists c, get (Z.to_nat i) s = Some c /\ is_space c = false.

Lemma trim_start_spec s : forall fuel i, (0 <= i <= Z.of_nat (length s))%Z -> (Z.of_nat (length s) - i < Z.of_nat fuel)%Z ->
  exists k, trim_start fuel s i (Z.of_nat (length s) - 1) = Ok k /\ (i <= k <= Z.of_nat (length s))%Z /\
    (forall j, (i <= j < k)%Z -> space_at s j) /\ (k = Z.of_nat (length s) \/ solid_at s k).
Proof.
  induction fuel as [|fuel IH]; intros i Hi Hf; [lia|]. cbn [trim_start]. destruct (Z.leb_spec i (Z.of_nat (length s) - 1)) as [L|L].
  - destruct (at_in s i) as (c & -> & G); [lia|]. cbn [rbind]. destruct (is_space c) eqn:W.
    + destruct (IH (i + 1)%Z) as (k & -> & K1 & K2 & K3); [lia|lia|]. exists k. split; auto. split; [lia|]. split; auto.
      intros j J. destruct (Z.eq_dec j i) as [->|N]; [exists c; auto|]. apply K2. lia.
    + exists i. split; auto. split; [lia|]. split; [intros; lia|]. right. exists c. auto.
  - exists i. split; auto. split; [lia|]. split; [intros; lia|]. left. lia.
Qed.
Lemma trim_end_spec s st : (0 <= st)%Z -> forall fuel i, (st - 1 <= i < Z.of_nat (length s))%Z -> (i - st < Z.of_nat fuel - 1)%Z ->
  exists k, trim_end fuel s st i = Ok k /\ (st - 1 <= k <= i)%Z /\
    (forall j, (k < j <= i)%Z -> space_at s j) /\ (k = (st - 1)%Z \/ solid_at s k).
Proof.
  intro S0. induction fuel as [|fuel IH]; intros i Hi Hf; [lia|]. cbn [trim_end]. rewrite Z.geb_leb. destruct (Z.leb_spec st i) as [L|L].
  - destruct (at_in s i) as (c & -> & G); [lia|]. cbn [rbind]. destruct (is_space c) eqn:W.
    + destruct (IH (i - 1)%Z) as (k & -> & K1 & K2 & K3); [lia|lia|]. exists k. split; auto. split; [lia|]. split; auto.
      intros j J. destruct (Z.eq_dec j i) as [->|N]; [exists c; auto|]. apply K2. lia.
    + exists i. split; auto. split; [lia|]. split; [intros; lia|]. right. exists c. auto.
  - exists i. split; auto. split; [lia|]. split; [intros; lia|]. left. lia.
Qed.
Lemma substring_app s n m p : substring n (m + p) s = substring n m s ++ substring (n + m) p s.
Proof.
  revert n m p; induction s as [|c s IH]; intros n m p.
  - destruct n; simpl; destruct m; simpl; auto; destruct p; auto.
  - destruct n; simpl; [|apply IH]. destruct m; simpl; [reflexivity|]. f_equal. now rewrite (IH 0 m p).
Qed.
Lemma substring_all s : substring 0 (length s) s = s.
Proof. induction s; simpl; congruence. Qed.
Lemma substring_len s : forall n m, (n + m <= length s)%nat -> length (substring n m s) = m.
Proof.
  induction s as [|c s IH]; intros n m L; simpl in *. { now replace n with 0%nat by lia; replace m with 0%nat by lia. }
  destruct n; [|apply IH; lia]. destruct m; auto. simpl. f_equal. apply IH. lia.
Qed.
Lemma substring_get s : forall n m i, (i < m)%nat -> get i (substring n m s) = get (i + n) s.
Proof. intros. rewrite (substring_correct1 s n m i) by auto. reflexivity. Qed.
Lemma all_chars_get (p : ascii -> Prop) s : all_chars p s <-> forall i c, get i s = Some c -> p c.
Proof.
  induction s as [|x s IH]; simpl; [split; auto; discriminate|]. rewrite IH. split.
  - intros [H1 H2] [|i] c E; [now injection E as <-|eauto].
  - intro H. split; [apply (H 0%nat); auto|]. intros i c. apply (H (S i)).
Qed.
Lemma get_some s i c : get i s = Some c -> (i < length s)%nat.
Proof. revert i; induction s; simpl; [discriminate|]. intros [|i] H; [lia|]. specialize (IHs _ H). lia. Qed.
Lemma first_get s : first_char s = get 0 s.
Proof. destruct s; auto. Qed.
Lemma last_get s : last_char s = get (length s - 1) s.
Proof.
  induction s as [|c s IH]; auto. destruct s as [|c' s]; auto. cbn [last_char]. change (match s with "" => Some c' | String _ _ => last_char s end) with (last_char (String c' s)).
  rewrite IH. simpl. now rewrite Nat.sub_0_r.
Qed.
Definition space (c : ascii) : Prop := is_space c = true.
Definition trimmed (s t : string) : Prop :=
  (exists l r, s = l ++ t ++ r /\ all_chars space l /\ all_chars space r) /\
  (forall c, first_char t = Some c -> ~ space c) /\ (forall c, last_char t = Some c -> ~ space c).

Lemma trim_correct s : exists t, trim_res s = Ok t /\ trimmed s t.
Proof.
  unfold trim_res. destruct (sempty s) eqn:E.
  { exists s. split; auto. apply sempty_spec in E. subst. split; [exists "", ""; simpl; auto|]. split; discriminate. }
  apply sempty_false in E. assert (L : (0 < Z.of_nat (length s))%Z) by (destruct s; [congruence|simpl; lia]).
  destruct (at_in s 0) as (c0 & -> & G0); [lia|]. destruct (at_in s (Z.of_nat (length s) - 1)) as (c1 & -> & G1); [lia|]. cbn [rbind].
  destruct (is_space c0) eqn:W0, (is_space c1) eqn:W1; cbn [orb negb].
  4: { exists s. split; auto. split; [exists "", ""; rewrite sapp_nil_r; simpl; auto|]. split; intros c H.
       - rewrite first_get in H. unfold space. change (Z.to_nat 0) with 0%nat in G0. congruence.
       - rewrite last_get in H. replace (Z.to_nat (Z.of_nat (length s) - 1)) with (length s - 1)%nat in G1 by lia. unfold space. congruence. }
  all: destruct (trim_start_spec s (S (length s)) 0) as (a & -> & A1 & A2 & A3); [lia|lia|]; cbn [rbind];
    destruct (trim_end_spec s a ltac:(lia) (S (length s)) (Z.of_nat (length s) - 1)) as (b & -> & B1 & B2 & B3); [lia|lia|]; cbn [rbind];
    clear G0 G1 W0 W1 c0 c1; cbn zeta;
    set (n := length s) in *;
    assert (SP : s = substring 0 (Z.to_nat a) s ++ substring (Z.to_nat a) (n - Z.to_nat a) s) by
      (rewrite <- (substring_app s 0 (Z.to_nat a)); replace (Z.to_nat a + (n - Z.to_nat a))%nat with n by lia; symmetry; apply substring_all);
    assert (SL : all_chars space (substring 0 (Z.to_nat a) s)) by
      (apply all_chars_get; intros i c G; assert (I := get_some _ _ _ G); rewrite substring_len in I by (fold n; lia);
       rewrite substring_get in G by auto; destruct (A2 (Z.of_nat i)) as (c' & G' & W); [lia|]; rewrite Nat2Z.id in G'; rewrite Nat.add_0_r in G; unfold space; congruence);
    (destruct (Z.leb_spec (b - a + 1) 0) as [Z|Z];
     [ exists ""; split; auto; split; [|split; discriminate];
       assert (a = Z.of_nat n) by (destruct A3 as [|(c & G & W)]; auto; exfalso; assert (b = a - 1)%Z by lia; destruct (B2 a) as (c' & G' & W'); [assert (I := get_some _ _ _ G); fold n in I; lia|]; congruence);
       exists s, ""; split; [now rewrite sapp_nil_r|]; split; [|exact I];
       rewrite SP; replace (n - Z.to_nat a)%nat with 0%nat by lia;
       (assert (X : substring (Z.to_nat a) 0 s = "") by (destruct (substring (Z.to_nat a) 0 s) eqn:Q; auto; assert (Q' := substring_len s (Z.to_nat a) 0 ltac:(fold n; lia)); rewrite Q in Q'; discriminate));
       rewrite X, sapp_nil_r; auto
     | exists (substring (Z.to_nat a) (Z.to_nat (b - a + 1)) s); split; auto; split;
       [ exists (substring 0 (Z.to_nat a) s), (substring (Z.to_nat a + Z.to_nat (b - a + 1)) (n - Z.to_nat a - Z.to_nat (b - a + 1)) s); split; [|split; auto];
         [ rewrite <- substring_app; replace (Z.to_nat (b - a + 1) + (n - Z.to_nat a - Z.to_nat (b - a + 1)))%nat with (n - Z.to_nat a)%nat by lia; exact SP
         | apply all_chars_get; intros i c G; assert (I := get_some _ _ _ G); rewrite substring_len in I by (fold n; lia);
           rewrite substring_get in G by auto; destruct (B2 (Z.of_nat i + b + 1)%Z) as (c' & G' & W); [lia|];
           replace (Z.to_nat (Z.of_nat i + b + 1)) with (i + (Z.to_nat a + Z.to_nat (b - a + 1)))%nat in G' by lia; unfold space; congruence ]
       | split; intros c G;
         [ rewrite first_get, substring_get in G by lia; destruct A3 as [|(c' & G' & W)]; [lia|]; simpl in G; unfold space; congruence
         | rewrite last_get, substring_len in G by (fold n; lia); rewrite substring_get in G by lia; destruct B3 as [|(c' & G' & W)]; [lia|];
           replace (Z.to_nat (b - a + 1) - 1 + Z.to_nat a)%nat with (Z.to_nat b) in G by lia; unfold space; congruence ] ] ]).
Qed.
Lemma trim_spec s : trimmed s (trim s).
Proof. unfold trim. destruct (trim_correct s) as (t & -> & H). exact H. Qed.

Lemma all_chars_app p a b : all_chars p (a ++ b) <-> all_chars p a /\ all_chars p b.
Proof. induction a; simpl; tauto. Qed.
Lemma last_app a c : last_char (a ++ char c) = Some c.
Proof. induction a as [|x a IH]; auto. simpl. destruct (a ++ char c) eqn:E; [destruct a; discriminate|]. exact IH. Qed.
(** the trimmed text is determined *)
Lemma lead_unique l l' t t' : all_chars space l -> all_chars space l' -> (forall c, first_char t = Some c -> ~ space c) ->
  (forall c, first_char t' = Some c -> ~ space c) -> l ++ t = l' ++ t' -> t <> "" -> t' <> "" -> l = l' /\ t = t'.
Proof.
  revert l'; induction l as [|c l IH]; intros [|c' l'] H H' F F' E N N'; simpl in *; auto.
  - subst t. simpl in F. destruct H' as [H' _]. destruct (F c' eq_refl H').
  - subst t'. simpl in F'. destruct H as [H _]. destruct (F' c eq_refl H).
  - injection E as -> E. destruct (IH l') as [-> ->]; tauto || auto.
Qed.
Lemma tail_unique t r t' r' : all_chars space r -> all_chars space r' -> (forall c, last_char t = Some c -> ~ space c) ->
  (forall c, last_char t' = Some c -> ~ space c) -> t ++ r = t' ++ r' -> t = t'.
Proof.
  intros H H' F F' E.
  assert (K : forall t t' r r', all_chars space r -> (forall c, last_char t' = Some c -> ~ space c) -> t ++ r = t' ++ r' -> (length t <= length t')%nat -> t = t').
  { clear. intros t t' r r' H F E L. destruct (sapp_split _ _ _ _ E L) as (m & -> & ->). apply all_chars_app in H. destruct H as [Hm _].
    destruct m as [|c m]; [now rewrite sapp_nil_r|]. exfalso.
    assert (Q : exists x y, String c m = x ++ char y). { clear. revert c; induction m as [|d m IH]; intro c; [exists "", c; auto|]. destruct (IH d) as (x & y & ->). exists (String c x), y. auto. }
    destruct Q as (x & y & Q). rewrite Q in *. rewrite <- sapp_assoc, last_app in F. apply all_chars_app in Hm. destruct Hm as [_ Hm]. exact (F y eq_refl (proj1 Hm)). }
  destruct (Nat.le_gt_cases (length t) (length t')); [exact (K t t' r r' H F' E ltac:(assumption))|]. symmetry. exact (K t' t r' r H' F (eq_sym E) ltac:(lia)).
Qed.
Lemma trimmed_unique s t t' : trimmed s t -> trimmed s t' -> t = t'.
Proof.
  intros [(l & r & E & Hl & Hr) [F L]] [(l' & r' & E' & Hl' & Hr') [F' L']].
  assert (B : forall x, all_chars space s -> (exists a b, s = a ++ x ++ b) -> (forall c, first_char x = Some c -> ~ space c) -> x = "").
  { clear. intros x H (a & b & E) F. rewrite E in H. apply all_chars_app in H. destruct H as [_ H]. apply all_chars_app in H. destruct H as [H _].
    destruct x; auto. simpl in *. destruct (F a0 eq_refl). apply H. }
  destruct t as [|c t].
  - symmetry. apply B; eauto. rewrite E. simpl. apply all_chars_app. auto.
  - destruct t' as [|c' t'].
    + apply B; eauto. rewrite E'. simpl. apply all_chars_app. auto.
    + rewrite E in E'. destruct (lead_unique l l' (String c t ++ r) (String c' t' ++ r')) as [-> E2]; auto; try (simpl; congruence).
      exact (tail_unique _ _ _ _ Hr Hr' L L' E2).
Qed.
Lemma trim_idem s : trim (trim s) = trim s.
Proof.
  destruct (trim_spec s) as [_ [F L]]. eapply trimmed_unique; [apply trim_spec|]. split; auto. exists "", "". rewrite sapp_nil_r. simpl. auto.
Qed.
Lemma trim_blank s : trim s = "" <-> all_chars space s.
Proof.
  split.
  - destruct (trim_spec s) as [(l & r & E & Hl & Hr) _]. intro T. rewrite T in E. rewrite E. apply all_chars_app. auto.
  - intro H. eapply trimmed_unique; [apply trim_spec|]. split; [exists s, ""; rewrite sapp_nil_r; simpl; auto|]. split; discriminate.
Qed.

(** * validName *)
Lemma sfilter_forall p s : sforall p (sfilter p s) = true.
Proof. induction s; simpl; auto. destruct (p a) eqn:E; simpl; rewrite ?E; auto. Qed.
Lemma sfilter_id p s : sforall p s = true -> sfilter p s = s.
Proof. induction s; simpl; auto. intro H. apply andb_true_iff in H. destruct H as [-> H]. now rewrite IHs. Qed.
Lemma sforall_all p s : sforall p s = true <-> all_chars (fun c => p c = true) s.
Proof. induction s; simpl; [tauto|]. rewrite andb_true_iff. tauto. Qed.
Lemma sfilter_empty p s : sfilter p s = "" <-> all_chars (fun c => p c = false) s.
Proof. induction s; simpl; [tauto|]. destruct (p a); [split; [discriminate|intros [H _]; discriminate]|tauto]. Qed.
Lemma name_not_space c : name_char c = true -> is_space c = false.
Proof. destruct c as [[] [] [] [] [] [] [] []]; vm_compute; auto. Qed.
Lemma valid_chars s : sforall name_char (valid_name s) = true.
Proof. unfold valid_name. destruct (sempty (trim s)); [reflexivity|apply sfilter_forall]. Qed.
Lemma valid_idem s : valid_name s <> "" -> valid_name (valid_name s) = valid_name s.
Proof.
  intro N. set (v := valid_name s) in *. assert (F : sforall name_char v = true) by apply valid_chars. unfold valid_name at 1.
  destruct (sempty (trim v)) eqn:E; [|now apply sfilter_id]. apply sempty_spec, trim_blank in E. destruct v; [congruence|]. simpl in *.
  apply andb_true_iff in F. destruct F as [F _]. apply name_not_space in F. destruct E as [E _]. unfold space in E. congruence.
Qed.
Lemma valid_empty s : valid_name s = "" <-> all_chars (fun c => name_char c = false) s /\ ~ all_chars space s.
Proof.
  unfold valid_name. destruct (sempty (trim s)) eqn:E.
  - apply sempty_spec, trim_blank in E. split; [discriminate|tauto].
  - apply sempty_false in E. rewrite trim_blank in E. rewrite sfilter_empty. tauto.
Qed.
Lemma valid_keep s : s <> "" -> sforall name_char s = true -> valid_name s = s.
Proof.
  intros N F. unfold valid_name. destruct (sempty (trim s)) eqn:E; [|now apply sfilter_id]. apply sempty_spec, trim_blank in E. destruct s; [congruence|]. simpl in *.
  apply andb_true_iff in F. destruct F as [F _]. apply name_not_space in F. destruct E as [E _]. unfold space in E. congruence.
Qed.

(** * printed numbers *)
Lemma digit_ok n : (0 <= n < 10)%Z -> is_digit (digit_char n) = true /\ digit_of (digit_char n) = n.
Proof.
  intro H. assert (C : (n = 0 \/ n = 1 \/ n = 2 \/ n = 3 \/ n = 4 \/ n = 5 \/ n = 6 \/ n = 7 \/ n = 8 \/ n = 9)%Z) by lia.
  repeat (destruct C as [-> | C]; [split; reflexivity|]). subst; split; reflexivity.
Qed.
Lemma read_digit n rest v k : (0 <= n < 10)%Z -> read_digits (char (digit_char n) ++ rest) v k = read_digits rest (v * 10 + n)%Z (S k).
Proof. intro H. destruct (digit_ok n H) as [D V]. unfold char. cbn [append read_digits]. rewrite D, V. reflexivity. Qed.
Lemma read_int : forall fuel n, (0 < fuel)%nat -> (0 <= n < 10 ^ Z.of_nat fuel)%Z -> exists len, (0 < len)%nat /\
  forall v k rest, read_digits (int_digits fuel n ++ rest) v k = read_digits rest (v * 10 ^ Z.of_nat len + n)%Z (k + len).
Proof.
  induction fuel as [|fuel IH]; intros n Hf Hn; [lia|]. cbn [int_digits]. destruct (Z.ltb_spec n 10) as [L|L].
  - exists 1%nat. split; [lia|]. intros. rewrite read_digit by lia. replace (10 ^ Z.of_nat 1)%Z with 10%Z by reflexivity. f_equal; lia.
  - rewrite Nat2Z.inj_succ, Z.pow_succ_r in Hn by lia. assert (Hf' : (0 < fuel)%nat) by (destruct fuel; [simpl in Hn; lia|lia]).
    assert (D := Z.div_mod n 10 ltac:(lia)). assert (M := Z.mod_pos_bound n 10 ltac:(lia)).
    destruct (IH (n / 10)%Z Hf') as (len & Lp & E). { split; [apply Z.div_pos; lia|]. apply Z.div_lt_upper_bound; lia. }
    exists (S len). split; [lia|]. intros. rewrite sapp_assoc, E, read_digit by lia. rewrite Nat2Z.inj_succ, Z.pow_succ_r by lia. f_equal; lia.
Qed.
Lemma nat_fuel n : (0 <= n)%Z -> (n < 10 ^ Z.of_nat (S (Z.to_nat (Z.log2 n))))%Z.
Proof.
  intro H. destruct (Z.eq_dec n 0) as [->|N]; [reflexivity|]. assert (P : (0 < n)%Z) by lia.
  rewrite Nat2Z.inj_succ, Z2Nat.id by apply Z.log2_nonneg. destruct (Z.log2_spec n P) as [_ U].
  eapply Z.lt_le_trans; [exact U|]. apply Z.pow_le_mono_l. lia.
Qed.
Lemma read_nat n : (0 <= n)%Z -> exists len, (0 < len)%nat /\
  forall v k rest, read_digits (nat_text n ++ rest) v k = read_digits rest (v * 10 ^ Z.of_nat len + n)%Z (k + len).
Proof. intro H. apply read_int; [lia|]. split; auto. now apply nat_fuel. Qed.
Lemma read_frac : forall d n v k rest, (0 <= n)%Z ->
  read_digits (frac_digits d n ++ rest) v k = read_digits rest (v * 10 ^ Z.of_nat d + n mod 10 ^ Z.of_nat d)%Z (k + d).
Proof.
  induction d as [|d IH]; intros n v k rest Hn.
  - cbn [frac_digits append]. change (10 ^ Z.of_nat 0)%Z with 1%Z. rewrite Z.mod_1_r. f_equal; lia.
  - cbn [frac_digits]. assert (M := Z.mod_pos_bound n 10 ltac:(lia)). rewrite sapp_assoc, IH, read_digit by (try apply Z.div_pos; lia).
    rewrite Nat2Z.inj_succ, Z.pow_succ_r by lia. assert (P : (0 < 10 ^ Z.of_nat d)%Z) by (apply Z.pow_pos_nonneg; lia).
    rewrite (Z.rem_mul_r n 10) by lia. f_equal; lia.
Qed.
Lemma int_head : forall fuel n, (0 < fuel)%nat -> (0 <= n < 10 ^ Z.of_nat fuel)%Z -> exists c r, int_digits fuel n = String c r /\ is_digit c = true.
Proof.
  induction fuel as [|fuel IH]; intros n Hf Hn; [lia|]. cbn [int_digits]. destruct (Z.ltb_spec n 10) as [L|L].
  - exists (digit_char n), "". split; auto. apply digit_ok. lia.
  - rewrite Nat2Z.inj_succ, Z.pow_succ_r in Hn by lia. assert (Hf' : (0 < fuel)%nat) by (destruct fuel; [simpl in Hn; lia|lia]).
    destruct (IH (n / 10)%Z Hf') as (c & r & -> & D). { split; [apply Z.div_pos; lia|]. apply Z.div_lt_upper_bound; lia. }
    exists c, (r ++ char (digit_char (n mod 10))). auto.
Qed.
Lemma nat_head n : (0 <= n)%Z -> exists c r, nat_text n = String c r /\ is_digit c = true.
Proof. intro H. apply int_head; [lia|]. split; auto. now apply nat_fuel. Qed.
Lemma digit_plain c : is_digit c = true -> is_space c = false /\ Ascii.eqb c "-" = false /\ Ascii.eqb c "+" = false.
Proof. destruct c as [[] [] [] [] [] [] [] []]; vm_compute; auto. Qed.

Lemma read_sign_digit (c : ascii) r : is_digit c = true -> read_sign (skip_ws (String c r)) = (false, String c r) /\
  read_sign (skip_ws ("-" ++ String c r)) = (true, String c r).
Proof. intro D. destruct (digit_plain c D) as (W & M & P). split; simpl; rewrite ?W; simpl; rewrite ?M, ?P; auto. Qed.

Definition read_unsigned (neg : bool) (s : string) : option (bool * Z * Z) :=
  let '(ip, ni, s) := read_digits s 0 0 in
  let '(m, nf, s) := match s with
                     | String c r => if Ascii.eqb c "." then read_digits r ip 0 else (ip, 0%nat, s)
                     | "" => (ip, 0%nat, s)
                     end in
  if Nat.eqb (ni + nf) 0 then None else
  match s with
  | "" => Some (neg, m, (- Z.of_nat nf)%Z)
  | String c r =>
    if (Ascii.eqb c "e" || Ascii.eqb c "E")%bool then
      let '(eneg, r) := read_sign r in
      let '(e, ne, r) := read_digits r 0 0 in
      if (Nat.eqb ne 0 || negb (sempty r))%bool then None
      else Some (neg, m, ((if eneg then - e else e) - Z.of_nat nf)%Z)
    else None
  end.
Lemma read_decimal_sign x neg s : read_sign (skip_ws x) = (neg, s) -> read_decimal x = read_unsigned neg s.
Proof. intro E. unfold read_decimal. rewrite E. reflexivity. Qed.
Lemma read_unsigned_fixed neg d n : (0 <= n)%Z -> read_unsigned neg (fixed_text d n) = Some (neg, n, (- Z.of_nat d)%Z).
Proof.
  intro H. unfold read_unsigned, fixed_text. assert (P : (0 < 10 ^ Z.of_nat d)%Z) by (apply Z.pow_pos_nonneg; lia).
  assert (Q : (0 <= n / 10 ^ Z.of_nat d)%Z) by (apply Z.div_pos; lia). destruct (read_nat _ Q) as (len & Lp & E).
  destruct d as [|d].
  - cbn [Nat.eqb]. rewrite E. cbn [read_digits]. assert (T : (0 + len + 0 =? 0)%nat = false) by (apply Nat.eqb_neq; lia). rewrite T.
    change (Z.of_nat 0) with 0%Z. rewrite Z.pow_0_r, Z.div_1_r. f_equal.
  - set (D := S d) in *. assert (DD : D = S d) by reflexivity. change (Nat.eqb D 0) with false. cbv iota. rewrite E. change ("." ++ frac_digits D n) with (String "." (frac_digits D n)).
    cbn [read_digits]. change (is_digit ".") with false. cbv iota. change (Ascii.eqb "." ".") with true. cbv iota.
    rewrite <- (sapp_nil_r (frac_digits D n)), read_frac by auto. cbn [read_digits].
    assert (T : (0 + len + (0 + D) =? 0)%nat = false) by (apply Nat.eqb_neq; lia). rewrite T. f_equal. f_equal. f_equal.
    assert (DM := Z.div_mod n (10 ^ Z.of_nat D) ltac:(lia)). lia.
Qed.
Lemma fixed_head d n : (0 <= n)%Z -> exists c r, fixed_text d n = String c r /\ is_digit c = true.
Proof.
  intro H. unfold fixed_text. assert (P : (0 < 10 ^ Z.of_nat d)%Z) by (apply Z.pow_pos_nonneg; lia).
  destruct (nat_head (n / 10 ^ Z.of_nat d)) as (c & r & -> & D); [apply Z.div_pos; lia|].
  eexists c, _. split; [reflexivity|auto].
Qed.
Lemma read_fixed d n : (0 <= n)%Z -> read_decimal (fixed_text d n) = Some (false, n, (- Z.of_nat d)%Z) /\
  read_decimal ("-" ++ fixed_text d n) = Some (true, n, (- Z.of_nat d)%Z).
Proof.
  intro H. destruct (fixed_head d n H) as (c & r & E & D). destruct (read_sign_digit c r D) as [R1 R2]. rewrite <- E in R1, R2.
  rewrite (read_decimal_sign _ _ _ R1), (read_decimal_sign _ _ _ R2). split; now apply read_unsigned_fixed.
Qed.
(** printed numbers contain no white space *)
Lemma digit_name c : is_digit c = true -> is_space c = false.
Proof. intro H. now destruct (digit_plain c H). Qed.
Lemma dig_nospace n : (0 <= n < 10)%Z -> sforall (fun c => negb (is_space c)) (char (digit_char n)) = true.
Proof. intro H. unfold char. cbn [sforall]. rewrite digit_name; [reflexivity|]. now apply digit_ok. Qed.
Lemma int_nospace fuel n : (0 <= n)%Z -> sforall (fun c => negb (is_space c)) (int_digits fuel n) = true.
Proof.
  revert n; induction fuel as [|fuel IH]; intros n H; auto. cbn [int_digits]. assert (M := Z.mod_pos_bound n 10 ltac:(lia)).
  destruct (Z.ltb_spec n 10); [apply dig_nospace; lia|].
  rewrite sforall_app, IH by (apply Z.div_pos; lia). apply dig_nospace; lia.
Qed.
Lemma frac_nospace d n : (0 <= n)%Z -> sforall (fun c => negb (is_space c)) (frac_digits d n) = true.
Proof.
  revert n; induction d as [|d IH]; intros n H; auto. cbn [frac_digits]. assert (M := Z.mod_pos_bound n 10 ltac:(lia)).
  rewrite sforall_app, IH by (apply Z.div_pos; lia). apply dig_nospace; lia.
Qed.
Lemma fixed_nospace d n : (0 <= n)%Z -> sforall (fun c => negb (is_space c)) (fixed_text d n) = true.
Proof.
  intro H. unfold fixed_text. assert (P : (0 < 10 ^ Z.of_nat d)%Z) by (apply Z.pow_pos_nonneg; lia).
  rewrite sforall_app. unfold nat_text. rewrite int_nospace by (apply Z.div_pos; lia). cbn [andb]. destruct (Nat.eqb d 0); auto. change (sforall (fun c => negb (is_space c)) (frac_digits d n) = true). now apply frac_nospace.
Qed.

(** * corollaries *)
Lemma join_split s d : s <> "" -> d <> "" -> join (split s d false) d = s.
Proof. intros S D. destruct (split_spec s d S D) as [H _]. rewrite join_glue. now apply pieces_glue. Qed.
Lemma split_free s d p : s <> "" -> d <> "" -> In p (split s d false) -> ~ occurs d p.
Proof. intros S D. destruct (split_spec s d S D) as [H _]. now apply pieces_free with (s := s). Qed.
Lemma split_join_char c l : l <> [] -> l <> [""] -> (forall p, In p l -> ~ occurs (char c) p) ->
  split (join l (char c)) (char c) false = l /\ ((forall p, In p l -> p <> "") -> split (join l (char c)) (char c) true = l).
Proof.
  intros N N' H. assert (E : split (join l (char c)) (char c) false = l).
  { apply split_join; auto; [discriminate|]. intros p I. split; auto. now apply char_separable, H. }
  split; auto. intro NE. destruct (split_spec (join l (char c)) (char c)) as [_ F]; [|discriminate|].
  - destruct l as [|x [|y l]]; simpl; [congruence|congruence|]. destruct x; simpl; congruence.
  - rewrite F, E. clear -NE. induction l as [|x l IH]; auto. simpl. destruct (sempty x) eqn:Q.
    + apply sempty_spec in Q. destruct (NE x); simpl; auto.
    + simpl. f_equal. apply IH. intros p I. apply NE. simpl; auto.
Qed.
Lemma split_join_overlap : exists d l, d <> "" /\ l <> [] /\ l <> [""] /\ (forall p, In p l -> ~ occurs d p) /\ split (join l d) d false <> l.
Proof.
  exists "aa", ["a"; "b"]. repeat split; try discriminate. intros p I (x & y & E). destruct I as [<- |[<- |[]]];
    destruct x as [|c [|c' x]]; simpl in E; discriminate.
Qed.
Lemma replace_split s pat rep : s <> "" -> pat <> "" -> replace_all s pat rep = Ok (join (split s pat false) rep).
Proof.
  intros S N. destruct (replace_spec pat rep N (Datatypes.S (length s)) s) as (r & l & E & R & PL & G); [lia|].
  unfold replace_all, find_replace. rewrite E, G, <- join_glue. destruct (split_spec s pat S N) as [H _]. now rewrite (pieces_unique _ _ _ _ PL H).
Qed.
Lemma replace_first_all s pat rep : (occurs pat s -> exists b a, first_occurrence pat s b a /\ replace_first s pat rep = Ok (b ++ rep)) /\
  (~ occurs pat s -> replace_first s pat rep = Ok s).
Proof.
  unfold replace_first. rewrite replace_first_spec. destruct (find_sub pat s) as [[b a]|] eqn:F.
  - apply find_sub_some in F. split; [intros _; eauto|]. intro N. destruct N. destruct F as [-> _]. exists b, a. auto.
  - apply find_sub_none in F. tauto.
Qed.
Lemma replace_first_loses : exists s pat rep b a, first_occurrence pat s b a /\ replace_first s pat rep <> Ok (b ++ rep ++ a).
Proof. exists "abc", "b", "x", "a", "c". split; [|discriminate]. apply find_sub_some. reflexivity. Qed.
Lemma valid_all_chars s : all_chars (fun c => name_char c = true) (valid_name s).
Proof. apply sforall_all, valid_chars. Qed.
Lemma valid_keep_all s : s <> "" -> all_chars (fun c => name_char c = true) s -> valid_name s = s.
Proof. intros N H. apply valid_keep; auto. now apply sforall_all. Qed.
