(** C75: FILTER keeps exactly the rows for which its expression is true. *)
From Coq Require Import Lia.
From Verif Require Import OpProofs OpProofs2 OpProps2 SelSpec SelProofs.
Local Open Scope string_scope.
Local Open Scope Z_scope.

(** *** A dictionary that is a list of terms *)
Fixpoint ex_find (t : string) (l : list string) (i : Z) : option Z :=
  match l with [] => None | u :: l' => if String.eqb u t then Some i else ex_find t l' (i + 1) end.
Definition ex_world (l : list string) : world :=
  mkWorld (fun i => if i <? 0 then None else if 1000 <=? i then None else nth_error l (Z.to_nat i)) (fun t => ex_find t l 0) (fun _ => "") (fun _ => 0%Q) (fun _ => 0).
Lemma ex_find_ok t l : forall k i, ex_find t l k = Some i -> k <= i /\ nth_error l (Z.to_nat (i - k)) = Some t.
Proof.
  induction l as [|u l IH]; intros k i H; cbn in H; [discriminate|]. destruct (String.eqb_spec u t) as [->|Hn].
  - inversion H; subst. split; [lia|]. now rewrite Z.sub_diag.
  - destruct (IH _ _ H) as [L E]. split; [lia|]. replace (Z.to_nat (i - k)) with (S (Z.to_nat (i - (k + 1)))) by lia. exact E.
Qed.
Lemma ex_find_nth t l : NoDup l -> forall n k, nth_error l n = Some t -> ex_find t l k = Some (k + Z.of_nat n).
Proof.
  induction 1 as [|u l Hu Hl IH]; intros n k E; [destruct n; discriminate|]. cbn. destruct n as [|n]; cbn in E.
  - inversion E; subst. rewrite String.eqb_refl. f_equal. lia.
  - destruct (String.eqb_spec u t) as [->|Hn]; [exfalso; apply Hu; eapply nth_error_In; eauto|]. rewrite (IH _ _ E). f_equal. lia.
Qed.
Lemma ex_dict l : NoDup l -> (length l <= 1000)%nat ->
  Forall (fun t => (exists v, t = iri v) \/ starts "_" t = true \/ exists v s, t = literal v s) l -> dict_ok (ex_world l).
Proof.
  intros Hn Hl Hf. split.
  - intros i t. cbn. split.
    + destruct (Z.ltb_spec i 0); [discriminate|]. destruct (Z.leb_spec 1000 i); [discriminate|]. intros E. rewrite (ex_find_nth t l Hn _ 0 E). f_equal. lia.
    + intros E. apply ex_find_ok in E as [L E]. destruct (Z.ltb_spec i 0); [lia|]. rewrite Z.sub_0_r in E.
      assert (Z.to_nat i < length l)%nat by (apply nth_error_Some; congruence). destruct (Z.leb_spec 1000 i); [lia|auto].
  - intros i t. cbn. destruct (Z.ltb_spec i 0); [discriminate|]. destruct (Z.leb_spec 1000 i); [discriminate|]. intros E. split.
    + assert (Z.to_nat i < length l)%nat by (apply nth_error_Some; congruence). unfold null32. lia.
    + rewrite Forall_forall in Hf. apply Hf. eapply nth_error_In; eauto.
Qed.
Definition int (v : string) : string := typed v (xsd "integer").
Definition ex_terms : list string :=
  [iri "http://e/a"; int "5"; int "12"; typed "1.50" (xsd "double"); literal "ann" ""; literal "bob" ""; "_:b1"; literal "a" ""; literal "a b" "";
   int "1"; typed "1.0" (xsd "double"); literal "1" ""; literal "a" "@en"; typed "9" (xsd "decimal"); typed "10" (xsd "decimal"); int "abc";
   typed "2020-01-31" (xsd "date"); typed "2020-02-01" (xsd "date"); int "-3"].
Definition exw : world := ex_world ex_terms.
Lemma exw_ok : dict_ok exw.
Proof.
  apply ex_dict; [|cbn; lia|].
  - unfold ex_terms. repeat (apply NoDup_cons; [intros H; cbn [In] in H; repeat (destruct H as [H|H]; [vm_compute in H; discriminate|]); exact H|]). constructor.
  - unfold ex_terms, int, typed. repeat (apply Forall_cons; [first [left; eexists; reflexivity|right; right; do 2 eexists; reflexivity|right; left; reflexivity]|]). constructor.
Qed.
(** The row that binds the variables 0, 1, ... to ids. *)
Definition exrow (ids : list Z) : regs := fun x => nth x ids null32.
Lemma remembers_nothing w : remembers w (fun _ => None).
Proof. intros i v H. discriminate. Qed.
Lemma digits_ok ds : ds <> "" -> forallb (fun c => (48 <=? Z.of_N (N_of_ascii c)) && (Z.of_N (N_of_ascii c) <=? 57)) (chars ds) = true -> digits ds.
Proof.
  intros Hn H. split; auto. apply Forall_forall. intros c Hc. rewrite forallb_forall in H. specialize (H _ Hc). apply andb_prop in H as [A B].
  apply Z.leb_le in A, B. split; auto.
Qed.
Lemma int_number v : v <> "" -> forallb (fun c => (48 <=? Z.of_N (N_of_ascii c)) && (Z.of_N (N_of_ascii c) <=? 57)) (chars v) = true ->
  value v < 2 ^ 63 -> number (int v) (inject_Z (value v)).
Proof.
  intros H1 H2 H3. pose proof (digits_ok _ H1 H2) as Hd. left. exists v, (value v). split; [|split; [|split; [reflexivity|reflexivity]]].
  - exists "", 1, v. repeat split; auto; try apply Hd; [left; auto|lia].
  - pose proof (value_nonneg v (proj2 Hd)). lia.
Qed.
Lemma one_number : number (typed "1.0" (xsd "double")) 1.
Proof.
  right. exists "1.0", (xsd "double"). split; [auto|]. split; [auto|]. left. exists "", 1, "1", "0".
  split; [left; auto|]. split; [apply digits_ok; [discriminate|reflexivity]|]. split; [apply digits_ok; [discriminate|reflexivity]|]. split; reflexivity.
Qed.

(** ** One row *)
(** For the filters of the class [Supported], a predicate built from the filter and evaluated on a
    row says what the filter says about the terms of the row, whatever values are remembered.
    Missing: the filters outside of this class, see the refutations below. *)
Theorem C75_filter_partial : forall w g f b m,
  dict_ok w -> Supported w g f -> Truth (row_of w g) f b -> remembers w m ->
  exists m', check w g (build w f) m = Some (b, m') /\ remembers w m'.
Proof. intros * D S T R. now apply filter_check. Qed.
Print Assumptions C75_filter_partial.
(** (?0 < ?1 && !(?2 >= "bob")) || ?3 in (<http://e/z>, "ann"), with 5, 12, "ann", "bob". *)
Definition ex_filter : filt :=
  FOr (FAnd (FLess (FVar 0) (FVar 1)) (FNot (FGreaterOrEqual (FVar 2) (FLit (LPlain "bob")))))
      (FIn (FVar 3) [FIri "http://e/z"; FLit (LPlain "ann")]).
Lemma plain_not_number v q : ~ number (literal v "") q.
Proof. intros H. apply classify_number in H as (x & C & _). unfold classify in C. rewrite num_text in C. discriminate. Qed.
Lemma iri_not_number v q : ~ number (iri v) q.
Proof. intros [(? & ? & _ & _ & E & _)|(? & ? & _ & E & _)]; discriminate E. Qed.
Lemma app_quote_inj v : forall v', v ++ quote = v' ++ quote -> v = v'.
Proof.
  induction v as [|c v IH]; intros [|d v'] E; cbn in E; inversion E; subst; auto.
  - destruct v'; discriminate.
  - destruct v; discriminate.
  - f_equal. auto.
Qed.
Lemma literal_inj v v' : literal v "" = literal v' "" -> v = v'.
Proof. unfold literal. rewrite !app_nil_s. intros E. apply app_quote_inj. cbn in E. now inversion E. Qed.
Lemma free_ok v : starts "<" v = false -> starts "_" v = false -> starts (ascii_of_nat 34) v = false -> free_text v.
Proof. repeat split; auto. Qed.
Lemma high_ok v : forallb (fun c => 34 <? Z.of_N (N_of_ascii c)) (chars v) = true -> high_text (literal v "").
Proof.
  intros H v' E. apply literal_inj in E. subst v'. apply Forall_forall. intros c Hc. rewrite forallb_forall in H. specialize (H _ Hc). now apply Z.ltb_lt.
Qed.
Lemma high_int v : high_text (int v).
Proof.
  intros v' E. exfalso. assert (H : getNumType (int v) = NINT) by apply num_integer. rewrite E, num_text in H. discriminate.
Qed.
Example C75_filter_example : dict_ok exw /\ Supported exw (exrow [1; 2; 4; 5]) ex_filter /\
  Truth (row_of exw (exrow [1; 2; 4; 5])) ex_filter true.
Proof.
  split; [apply exw_ok|]. split.
  - cbn [Supported ex_filter]. split; [split|].
    + repeat split; try (left; eexists; reflexivity). intros t [H|H]; inversion H as [x t' E| | | | | |]; subst; vm_compute in E; inversion E; subst; apply (high_int "5") || apply (high_int "12").
    + split; [left; eexists; reflexivity|]. split; [right; split; [now apply free_ok|]; split; [left; vm_compute; discriminate|exact I]|]. split; [exact I|]. split; [vm_compute; discriminate|].
      intros t [H|H]; inversion H as [x t' E|l E| | | | |]; subst; [vm_compute in E; inversion E; subst; apply (high_ok "ann")|apply (high_ok "bob")]; reflexivity.
    + split; [eexists; reflexivity|]. constructor; [|constructor; [|constructor]].
      * split; [left; eexists; reflexivity|]. split; [right; now apply free_ok|]. split; [left; eexists; reflexivity|].
        intros t1 t2 q1 q2 _ O _ N _. inversion O; subst. exfalso. eapply iri_not_number; eauto.
      * split; [left; eexists; reflexivity|]. split; [right; split; [now apply free_ok|]; split; [left; vm_compute; discriminate|exact I]|]. split; [left; eexists; reflexivity|].
        intros t1 t2 q1 q2 _ O _ N _. inversion O; subst. exfalso. eapply plain_not_number; eauto.
  - apply T_or_l. apply T_and_r.
    + apply (T_less _ _ _ (int "5") (int "12") Lt); [constructor; reflexivity|constructor; reflexivity|].
      exact (Ord_number _ _ _ _ (int_number "5" ltac:(discriminate) eq_refl eq_refl) (int_number "12" ltac:(discriminate) eq_refl eq_refl)).
    + apply (T_not _ _ false). apply (T_greatereq _ _ _ (literal "ann" "") (literal "bob" "") Lt); [constructor; reflexivity|constructor|]. exact (Ord_text "ann" "bob").
Qed.

(** ** The operator *)
(** If the filter is of the class and has a value for each row of the input, and [keep] is that value,
    the operator returns the rows with the value true, in the order of the input and as often. *)
Theorem C75_selection_partial : forall w V W f keep L input fuel,
  dict_ok w -> incl (fvars f) V -> (length L < fuel)%nat ->
  (forall a, In a L -> Supported w (fst a) f /\ Truth (row_of w (fst a)) f (keep a)) ->
  Answers V W L input -> Answers V W (filter keep L) (selection w fuel (build w f) input).
Proof.
  intros * D HV Hf HD HA. unfold Answers, selection. eapply Rows_I; [|eapply (sl_start w any V W f keep fuel D HV); eauto using remembers_nothing].
  intros; exact Logic.I.
Qed.
Print Assumptions C75_selection_partial.
(** The operator can be run again: what it remembers of earlier runs does not change its answer. *)
Theorem C75_selection_restart_partial : forall w V W X f keep rows input fuel,
  dict_ok w -> incl (fvars f) V -> (forall v, (length (rows v) < fuel)%nat) ->
  (forall v a, In a (rows v) -> Supported w (fst a) f /\ Truth (row_of w (fst a)) f (keep a)) ->
  Restarts V W X rows input -> Restarts V W X (fun v => filter keep (rows v)) (selection w fuel (build w f) input).
Proof.
  intros * D HV Hf HD (I & HI & HA). exists (sl_ok w I f fuel). split; [exists input, (fun _ => None); auto using remembers_nothing|].
  intros o' (i & m & -> & Hi & Hm) v. eapply (sl_start w I V W f keep fuel D HV); eauto. intros a. apply HD.
Qed.
Print Assumptions C75_selection_restart_partial.
Definition ex_less : filt := FLess (FVar 0) (FVar 1).
Definition ex_keep (a : regs * Z) : bool := fst a 0%nat =? 1.
Definition ex_rows : list (list Z * Z) := [([1; 2], 1); ([2; 1], 3); ([1; 2], 2)].
Example C75_selection_example :
  Answers [0%nat; 1%nat] [0%nat; 1%nat] (filter ex_keep (rows [0%nat; 1%nat] ex_rows))
    (selection exw 9 (build exw ex_less) (scan [0%nat; 1%nat] [] (fun _ => ex_rows))) /\
  table [0%nat; 1%nat] (filter ex_keep (rows [0%nat; 1%nat] ex_rows)) = [([1; 2], 1); ([1; 2], 2)].
Proof.
  split; [|reflexivity]. apply C75_selection_partial; [apply exw_ok|intros x Hx; exact Hx|cbn; lia| |apply scan_answers; [nodup|wide]].
  intros a Ha.
  assert (N5 : number (int "5") 5) by exact (int_number "5" ltac:(discriminate) eq_refl eq_refl).
  assert (N12 : number (int "12") 12) by exact (int_number "12" ltac:(discriminate) eq_refl eq_refl).
  assert (Hrow : (row_of exw (fst a) 0%nat = Some (int "5") /\ row_of exw (fst a) 1%nat = Some (int "12") /\ ex_keep a = true) \/
                 (row_of exw (fst a) 0%nat = Some (int "12") /\ row_of exw (fst a) 1%nat = Some (int "5") /\ ex_keep a = false)).
  { cbn in Ha. destruct Ha as [<-|[<-|[<-|[]]]]; [left|right|left]; repeat split; reflexivity. }
  assert (Hall : forall t, Operand (row_of exw (fst a)) (FVar 0) t \/ Operand (row_of exw (fst a)) (FVar 1) t -> high_text t).
  { intros t [H|H]; inversion H as [x t' E| | | | | |]; subst; destruct Hrow as [(A & B & _)|(A & B & _)]; rewrite ?A, ?B in E; inversion E; apply high_int. }
  split; [repeat split; auto; left; eexists; reflexivity|].
  destruct Hrow as [(A & B & ->)|(A & B & ->)].
  - exact (T_less _ _ _ _ _ _ (Op_var _ _ _ A) (Op_var _ _ _ B) (Ord_number _ _ _ _ N5 N12)).
  - exact (T_less _ _ _ _ _ _ (Op_var _ _ _ A) (Op_var _ _ _ B) (Ord_number _ _ _ _ N12 N5)).
Qed.

(** ** Where filters go wrong *)
Local Notation nothing := (fun _ : Z => @None idval).
Local Notation V0 := (FVar 0).
Local Notation V1 := (FVar 1).
Definition verdict (r : option (bool * vmap)) : option bool := match r with Some (b, _) => Some b | None => None end.
(** Whether a number is less than a text depends on whether the number was compared before: the text of
    the number is not loaded when its value is remembered.  The same row, twice. *)
Theorem C75_history_refuted : exists w g f m1,
  dict_ok w /\ check w g (build w f) nothing = Some (false, m1) /\ remembers w m1 /\ verdict (check w g (build w f) m1) = Some true.
Proof.
  exists exw, (exrow [1; 11]), (FLess V0 V1), (fun j => if j =? 1 then Some (IvInt NINT 5) else None). split; [apply exw_ok|]. split; [vm_compute; reflexivity|]. split; [|vm_compute; reflexivity].
  intros i v. cbv beta. destruct (i =? 1) eqn:E; [|discriminate]. intros H. apply Z.eqb_eq in E. subst i. inversion H; subst. exists (int "5"), TLiteral. split; vm_compute; reflexivity.
Qed.
Print Assumptions C75_history_refuted.
(** A variable without value (the operators put 2^32-1) counts as bound. *)
Theorem C75_bound_refuted : exists w g f, dict_ok w /\ g 0%nat = null32 /\
  Truth (row_of w g) f false /\ check w g (build w f) nothing = Some (true, nothing).
Proof.
  exists exw, (exrow []), (FBound 0). split; [apply exw_ok|]. split; [reflexivity|]. split; [|reflexivity].
  exact (T_bound (row_of exw (exrow [])) 0).
Qed.
Print Assumptions C75_bound_refuted.
(** A comparison of two variables without values is an error, and keeps the row. *)
Theorem C75_unbound_equal_refuted : exists w g f, dict_ok w /\ (forall b, ~ Truth (row_of w g) f b) /\
  check w g (build w f) nothing = Some (true, nothing).
Proof.
  exists exw, (exrow []), (FEqual V0 V1). split; [apply exw_ok|]. split; [|reflexivity].
  intros b H. inversion H as [| | | | |? ? t1 t2 x O _ _| | | | | | | | | | | | | |]; subst. inversion O as [? ? E| | | | | |]. vm_compute in E. discriminate.
Qed.
Print Assumptions C75_unbound_equal_refuted.
(** Equal numbers that are written differently are not equal. *)
Theorem C75_number_equal_refuted : exists w g f, dict_ok w /\
  Truth (row_of w g) f true /\ check w g (build w f) nothing = Some (false, nothing).
Proof.
  exists exw, (exrow [9; 10]), (FEqual V0 V1). split; [apply exw_ok|]. split; [|reflexivity].
  apply (T_equal _ _ _ (int "1") (typed "1.0" (xsd "double"))); [constructor; reflexivity|constructor; reflexivity|].
  exact (Eq_number _ _ _ _ (int_number "1" ltac:(discriminate) eq_refl eq_refl) one_number).
Qed.
Print Assumptions C75_number_equal_refuted.
(** A number that no triple has cannot be compared with: the comparison reads an id that was never set. *)
Theorem C75_absent_number_refuted : exists w g f, dict_ok w /\
  Truth (row_of w g) f true /\ check w g (build w f) nothing = None.
Proof.
  exists exw, (exrow [1]), (FLess V0 (FLit (LTyped "7" (xsd "integer")))). split; [apply exw_ok|]. split; [|reflexivity].
  apply (T_less _ _ _ (int "5") (int "7") Lt); [constructor; reflexivity|exact (Op_lit _ (LTyped "7" (xsd "integer")))|].
  exact (Ord_number _ _ _ _ (int_number "5" ltac:(discriminate) eq_refl eq_refl) (int_number "7" ltac:(discriminate) eq_refl eq_refl)).
Qed.
Print Assumptions C75_absent_number_refuted.
(** "a" is not less than "a b": the closing quote takes part in the comparison. *)
Theorem C75_text_order_refuted : exists w g f, dict_ok w /\
  Truth (row_of w g) f true /\ check w g (build w f) nothing = Some (false, nothing).
Proof.
  exists exw, (exrow [7; 8]), (FLess V0 V1). split; [apply exw_ok|]. split; [|vm_compute; reflexivity].
  apply (T_less _ _ _ (literal "a" "") (literal "a b" "") Lt); [constructor; reflexivity|constructor; reflexivity|]. exact (Ord_text "a" "a b").
Qed.
Print Assumptions C75_text_order_refuted.
(** Decimals are compared as texts: 10 is less than 9. *)
Theorem C75_decimal_refuted : exists w g, dict_ok w /\
  row_of w g 0%nat = Some (typed "10" (xsd "decimal")) /\ row_of w g 1%nat = Some (typed "9" (xsd "decimal")) /\
  check w g (build w (FLess V0 V1)) nothing = Some (true, nothing).
Proof. exists exw, (exrow [14; 13]). split; [apply exw_ok|]. repeat split; vm_compute; reflexivity. Qed.
Print Assumptions C75_decimal_refuted.
Lemma ordered_left t u c : Ordered t u c -> (exists q, number t q) \/ (exists y m d, date t y m d) \/ exists v, t = literal v "".
Proof. intros []; eauto 6. Qed.
(** A literal of type integer that is no number ends the query instead of dropping the row. *)
Theorem C75_malformed_refuted : exists w g f, dict_ok w /\ (forall b, ~ Truth (row_of w g) f b) /\
  row_of w g 0%nat = Some (int "abc") /\ row_of w g 1%nat = Some (int "5") /\ check w g (build w f) nothing = None.
Proof.
  exists exw, (exrow [15; 1]), (FLess V0 V1). split; [apply exw_ok|]. split; [|repeat split; vm_compute; reflexivity].
  intros b H. inversion H as [| | | | | | |? ? t1 t2 c O _ R| | | | | | | | | | | |]; subst. inversion O as [? ? E| | | | | |]. vm_compute in E. inversion E; subst. clear E.
  apply ordered_left in R as [(q & N1)|[(y & mo & d & N1)|(v & E1)]].
  - apply classify_number in N1 as (v & C & _). vm_compute in C. discriminate.
  - apply classify_date in N1 as (C & _). vm_compute in C. discriminate.
  - apply (f_equal getNumType) in E1. rewrite num_text in E1. vm_compute in E1. discriminate.
Qed.
Print Assumptions C75_malformed_refuted.
(** A blank node is a literal and not a blank node. *)
Theorem C75_blank_refuted : exists w g, dict_ok w /\
  Truth (row_of w g) (FIsBlank V0) true /\ check w g (build w (FIsBlank V0)) nothing = Some (false, nothing) /\
  Truth (row_of w g) (FIsLiteral V0) false /\ check w g (build w (FIsLiteral V0)) nothing = Some (true, nothing).
Proof.
  exists exw, (exrow [6]). split; [apply exw_ok|]. split; [|split; [reflexivity|split; [|reflexivity]]].
  - exact (T_isblank _ _ "_:b1" (Op_var _ 0%nat _ eq_refl)).
  - exact (T_isliteral _ _ "_:b1" (Op_var _ 0%nat _ eq_refl)).
Qed.
Print Assumptions C75_blank_refuted.
(** The functions that take a term apart: datatype, lang, str, contains. *)
Theorem C75_function_refuted : exists w g, dict_ok w /\
  (let f := FEqual (FDatatype V0) (FIri (xsd "integer")) in
   Truth (row_of w g) f true /\ check w g (build w f) nothing = Some (false, nothing)) /\
  (let f := FEqual (FLang V1) (FLit (LPlain "en")) in
   Truth (row_of w g) f true /\ check w g (build w f) nothing = Some (false, nothing)) /\
  (let f := FEqual (FStr V1) (FLit (LPlain "a")) in
   Truth (row_of w g) f true /\ check w g (build w f) nothing = Some (false, nothing)) /\
  (let f := FContains (FVar 2) (FLit (LPlain "a")) in
   Truth (row_of w g) f true /\ check w g (build w f) nothing = Some (false, nothing)).
Proof.
  exists exw, (exrow [1; 12; 4]). split; [apply exw_ok|].
  assert (NN : forall v u, ~ ((exists q, number (literal v "") q) /\ (exists q, number u q))) by (intros v u [(q & N) _]; eapply plain_not_number; eauto).
  repeat split; try (vm_compute; reflexivity).
  - apply (T_equal _ _ _ (iri (xsd "integer")) (iri (xsd "integer"))); [exact (Op_datatype _ _ "5" _ (Op_var _ 0%nat _ eq_refl))|constructor|].
    refine (Eq_term (iri (xsd "integer")) (iri (xsd "integer")) _). intros [(q & N) _]. eapply iri_not_number; eauto.
  - apply (T_equal _ _ _ (literal "en" "") (literal "en" "")); [exact (Op_lang _ _ "a" "en" (Op_var _ 1%nat _ eq_refl))|exact (Op_lit _ (LPlain "en"))|].
    exact (Eq_term (literal "en" "") (literal "en" "") (NN _ _)).
  - apply (T_equal _ _ _ (literal "a" "") (literal "a" "")); [exact (Op_str_lit _ _ "a" "@en" (Op_var _ 1%nat _ eq_refl))|exact (Op_lit _ (LPlain "a"))|].
    exact (Eq_term (literal "a" "") (literal "a" "") (NN _ _)).
  - exact (T_contains _ (FVar 2) _ "ann" "" "a" "" (Op_var _ 2%nat _ eq_refl) (Op_lit _ (LPlain "a"))).
Qed.
Print Assumptions C75_function_refuted.
(** regex() is false, whatever it is given. *)
Theorem C75_regex_refuted : forall w g a b m, check w g (build w (FRegex a b)) m = Some (false, m).
Proof. reflexivity. Qed.
Print Assumptions C75_regex_refuted.
(** Constants: with a language they are not found; a literal that no triple has equals the IRI with
    the same text; the literal "<http://e/a>" is taken for an IRI. *)
Theorem C75_constant_refuted : exists w g, dict_ok w /\
  (let f := FEqual V0 (FLit (LLang "a" "en")) in
   Truth (row_of w g) f true /\ check w g (build w f) nothing = Some (false, nothing)) /\
  (let f := FEqual V1 (FLit (LPlain "http://e/a")) in
   Truth (row_of w g) f false /\ check w g (build w f) nothing = Some (true, nothing)) /\
  (let f := FEqual V1 (FLit (LPlain "<http://e/a>")) in
   Truth (row_of w g) f false /\ check w g (build w f) nothing = Some (true, nothing)).
Proof.
  exists exw, (exrow [12; 0]). split; [apply exw_ok|]. repeat split; try (vm_compute; reflexivity).
  - refine (T_equal _ _ _ (literal "a" "@en") (literal "a" "@en") _ (Op_var _ 0%nat _ eq_refl) (Op_lit _ (LLang "a" "en")) (Eq_term (literal "a" "@en") (literal "a" "@en") _)).
    intros [(q & N) _]. apply classify_number in N as (v & C & _). vm_compute in C. discriminate.
  - refine (T_equal _ _ _ (iri "http://e/a") (literal "http://e/a" "") _ (Op_var _ 1%nat _ eq_refl) (Op_lit _ (LPlain "http://e/a")) (Eq_term (iri "http://e/a") (literal "http://e/a" "") _)).
    intros [(q & N) _]. eapply iri_not_number; eauto.
  - refine (T_equal _ _ _ (iri "http://e/a") (literal "<http://e/a>" "") _ (Op_var _ 1%nat _ eq_refl) (Op_lit _ (LPlain "<http://e/a>")) (Eq_term (iri "http://e/a") (literal "<http://e/a>" "") _)).
    intros [(q & N) _]. eapply iri_not_number; eauto.
Qed.
Print Assumptions C75_constant_refuted.
(** Ids of constants keep 32 bits: a constant with a larger id equals another term. *)
Theorem C75_large_id_refuted : exists w g, row_of w g 0%nat = Some (iri "b") /\ w_text w (2 ^ 32 + 1) = Some (iri "a") /\ w_number w (iri "a") = Some (2 ^ 32 + 1) /\
  check w g (build w (FEqual V0 (FIri "a"))) nothing = Some (true, nothing).
Proof.
  exists (mkWorld (fun i => if i =? 1 then Some (iri "b") else if i =? 2 ^ 32 + 1 then Some (iri "a") else None)
            (fun t => if String.eqb t (iri "b") then Some 1 else if String.eqb t (iri "a") then Some (2 ^ 32 + 1) else None)
            (fun _ => "") (fun _ => 0%Q) (fun _ => 0)), (exrow [1]). repeat split; vm_compute; reflexivity.
Qed.
Print Assumptions C75_large_id_refuted.
(** A number that is kept in the id (2^62 + 5 stands for 5) is less than a negative number. *)
Theorem C75_inline_negative_refuted : exists w g, dict_ok w /\ g 0%nat = INTEGER + 5 /\ row_of w g 1%nat = Some (int "-3") /\
  check w g (build w (FLess V0 V1)) nothing = Some (true, nothing).
Proof. exists exw, (exrow [INTEGER + 5; 18]). split; [apply exw_ok|]. repeat split; vm_compute; reflexivity. Qed.
Print Assumptions C75_inline_negative_refuted.
