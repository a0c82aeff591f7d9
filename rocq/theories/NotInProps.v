(** C36: the difference of two columns. *)
From Coq Require Import Sorting.Sorted.
From Verif Require Import TableModel ColumnModel ItrProofs TableSpec TableProofs RowProofs ClusterProofs ColumnProofs TableProps NotInModel.
Local Open Scope Z_scope.

(** A table with the pairs [l] is open; [col] is its column [id]: the distinct first values of a
    table, or the second values of the first value it was opened with. *)
Inductive opened : Z -> col_st -> list Z -> Prop :=
| opened_first th m k p l st : StronglySorted plt l -> pairs_below56 l -> zl l < 2 ^ 56 -> contains m p (col_write th l) ->
    col_setup m k p (p + zl (col_write th l)) = Some st -> opened 1 st (nodup Z.eq_dec (map fst l))
| opened_second th m k p l c1 st : StronglySorted plt l -> pairs_below56 l -> zl l < 2 ^ 56 -> int64 c1 -> contains m p (col_write th l) ->
    col_setup1 m k c1 p (p + zl (col_write th l)) = Some st -> filter (pair_matches c1 (-1)) l <> [] ->
    opened 2 st (map snd (filter (pair_matches c1 (-1)) l)).

Definition not_in (l col : list Z) : list Z := filter (fun x => negb (existsb (Z.eqb x) l)) col.

(** *** Proof *)
Fixpoint vals (c : ncol) (p : Z) (l : list Z) : Prop :=
  match l with
  | [] => p = n_end c
  | x :: t => rdn (n_w c) (n_mem c) p = Some x /\ p <> n_end c /\ vals c (p + n_step c) t
  end.

Lemma not_in_cons_lt o x l col : x < o -> Forall (fun y => x < y) l -> not_in (o :: l) (x :: col) = x :: not_in (o :: l) col.
Proof.
  intros H1 H2. unfold not_in. cbn [filter]. replace (existsb (Z.eqb x) (o :: l)) with false; auto. symmetry. apply not_true_is_false. intros H.
  apply existsb_exists in H. destruct H as (y & [-> |Hy] & E); [lia|]. rewrite Forall_forall in H2. specialize (H2 y Hy). lia.
Qed.
Lemma not_in_skip o l col : Forall (fun x => o < x) col -> not_in (o :: l) col = not_in l col.
Proof.
  unfold not_in. intros H. induction H as [|x col Hx _ IH]; cbn [filter]; auto. rewrite IH. cbn [existsb]. destruct (Z.eqb_spec x o); [lia|]. reflexivity.
Qed.
Lemma not_in_nil col : not_in [] col = col.
Proof. unfold not_in. cbn. induction col; cbn; f_equal; auto. Qed.

Lemma ni_rest_ok c : forall l fuel p, vals c p l -> (length l < fuel)%nat -> ni_rest c false fuel p = Some l.
Proof.
  induction l as [|x l IH]; intros [|f] p Hv Hf; cbn [length] in Hf; try lia; cbn [ni_rest vals] in *.
  - subst p. now rewrite Z.eqb_refl.
  - destruct Hv as (H1 & H2 & H3). destruct (Z.eqb_spec p (n_end c)); [contradiction|]. rewrite H1, (IH f) by (auto; lia). reflexivity.
Qed.
(** The merge over the columns x :: l and o :: r. *)
Lemma ni_merge_ok c d : forall fuel x l o r p q, vals c p (x :: l) -> vals d q (o :: r) ->
  StronglySorted Z.lt (x :: l) -> StronglySorted Z.lt (o :: r) -> (length l + length r < fuel)%nat ->
  exists out p1 tv, ni_merge c d false fuel x o p q = Some (out, p1, tv) /\
    ((p1 = n_end c /\ out = not_in (o :: r) (x :: l)) \/
     (exists rest, vals c p1 (tv :: rest) /\ out ++ tv :: rest = not_in (o :: r) (x :: l) /\ (length rest <= length l)%nat)).
Proof.
  induction fuel as [|f IH]; intros x l o r p q Hc Hd Sx So Hf; [lia|]. cbn [ni_merge].
  destruct Hc as (C1 & C2 & C3). destruct Hd as (D1 & D2 & D3). rewrite andb_false_r.
  inversion Sx as [|? ? Sl Fl]; subst. inversion So as [|? ? Sr Fr]; subst.
  destruct (Z.leb_spec x o) as [Hle|Hgt].
  - set (out := if x <? o then [x] else []).
    assert (Hout : out ++ not_in (o :: r) l = not_in (o :: r) (x :: l)).
    { unfold out. destruct (Z.ltb_spec x o) as [Hlt|].
      - rewrite not_in_cons_lt; auto. eapply Forall_impl; [|exact Fr]. cbn. lia.
      - assert (x = o) by lia. subst x. unfold not_in. cbn [filter existsb]. rewrite Z.eqb_refl. reflexivity. }
    destruct l as [|x1 l]; cbn [vals] in C3.
    + rewrite C3, Z.eqb_refl. do 3 eexists. split; [reflexivity|]. left. split; auto. rewrite <- Hout. unfold not_in at 1. cbn. now rewrite app_nil_r.
    + destruct C3 as (C4 & C5 & C6). destruct (Z.eqb_spec (p + n_step c) (n_end c)); [contradiction|]. rewrite C4.
      destruct (IH x1 l o r (p + n_step c) q (conj C4 (conj C5 C6)) (conj D1 (conj D2 D3)) Sl So ltac:(cbn in Hf; lia)) as (o1 & p1 & tv & E & HP).
      rewrite E. do 3 eexists. split; [reflexivity|]. cbn [fst snd]. destruct HP as [[P1 P2]|(rest & P1 & P2 & P3)].
      * left. split; auto. congruence.
      * right. exists rest. split; auto. split; [rewrite <- app_assoc; congruence|cbn; lia].
  - assert (Hsk : not_in (o :: r) (x :: l) = not_in r (x :: l)).
    { apply not_in_skip. constructor; [lia|]. eapply Forall_impl; [|exact Fl]. cbn. lia. }
    destruct r as [|o1 r]; cbn [vals] in D3.
    + rewrite D3, Z.eqb_refl. do 3 eexists. split; [reflexivity|]. right. exists l. split; [exact (conj C1 (conj C2 C3))|]. rewrite Hsk, not_in_nil. auto.
    + destruct D3 as (D4 & D5 & D6). destruct (Z.eqb_spec (q + n_step d) (n_end d)); [contradiction|]. rewrite D4, Hsk.
      apply IH; auto; [exact (conj C1 (conj C2 C3))|exact (conj D4 (conj D5 D6))|cbn in Hf; lia].
Qed.
(** With the early stop. *)
Lemma ni_stop_ok c d : forall fuel x l o r p q, vals c p (x :: l) -> vals d q (o :: r) ->
  StronglySorted Z.lt (x :: l) -> StronglySorted Z.lt (o :: r) -> (length l + length r < fuel)%nat ->
  exists out p1 tv, ni_merge c d true fuel x o p q = Some (out, p1, tv) /\
    ((p1 = n_end c /\ out = [] /\ not_in (o :: r) (x :: l) = []) \/
     (p1 <> n_end c /\ (out = [] \/ out = [tv]) /\ exists t, not_in (o :: r) (x :: l) = tv :: t)).
Proof.
  induction fuel as [|f IH]; intros x l o r p q Hc Hd Sx So Hf; [lia|]. cbn [ni_merge].
  destruct Hc as (C1 & C2 & C3). destruct Hd as (D1 & D2 & D3). rewrite andb_true_r.
  inversion Sx as [|? ? Sl Fl]; subst. inversion So as [|? ? Sr Fr]; subst.
  destruct (Z.leb_spec x o) as [Hle|Hgt].
  - destruct (Z.ltb_spec x o) as [Hlt|].
    + do 3 eexists. split; [reflexivity|]. right. split; auto. split; auto. rewrite not_in_cons_lt; eauto. eapply Forall_impl; [|exact Fr]. cbn. lia.
    + assert (x = o) by lia. subst x. assert (Hs : not_in (o :: r) (o :: l) = not_in (o :: r) l) by (unfold not_in; cbn [filter existsb]; rewrite Z.eqb_refl; reflexivity).
      rewrite Hs. destruct l as [|x1 l]; cbn [vals] in C3.
      * rewrite C3, Z.eqb_refl. do 3 eexists. split; [reflexivity|]. left. auto.
      * destruct C3 as (C4 & C5 & C6). destruct (Z.eqb_spec (p + n_step c) (n_end c)); [contradiction|]. rewrite C4.
        destruct (IH x1 l o r (p + n_step c) q (conj C4 (conj C5 C6)) (conj D1 (conj D2 D3)) Sl So ltac:(cbn in Hf; lia)) as (o1 & p1 & tv & E & HP).
        rewrite E. do 3 eexists. split; [reflexivity|]. exact HP.
  - assert (Hsk : not_in (o :: r) (x :: l) = not_in r (x :: l)).
    { apply not_in_skip. constructor; [lia|]. eapply Forall_impl; [|exact Fl]. cbn. lia. }
    rewrite Hsk. destruct r as [|o1 r]; cbn [vals] in D3.
    + rewrite D3, Z.eqb_refl. do 3 eexists. split; [reflexivity|]. right. split; auto. split; auto. rewrite not_in_nil. eauto.
    + destruct D3 as (D4 & D5 & D6). destruct (Z.eqb_spec (q + n_step d) (n_end d)); [contradiction|]. rewrite D4.
      apply IH; auto; [exact (conj C1 (conj C2 C3))|exact (conj D4 (conj D5 D6))|cbn in Hf; lia].
Qed.

(** The columns of open tables. *)
Definition colv (c : ncol) (l : list Z) : Prop := vals c (n_begin c) l /\ StronglySorted Z.lt l /\ (length l < FU (n_mem c))%nat.

Lemma vals_all c l : forall p, 0 < n_step c -> n_end c = p + n_step c * zl l ->
  (forall i, (i < length l)%nat -> rdn (n_w c) (n_mem c) (p + Z.of_nat i * n_step c) = Some (nth i l 0)) -> vals c p l.
Proof.
  induction l as [|x l IH]; intros p Hp He H; cbn [vals length] in *; [lia|]. split; [|split].
  - specialize (H O ltac:(lia)). cbn in H. now rewrite Z.add_0_r in H.
  - nia.
  - apply IH; auto; [lia|]. intros i Hi. specialize (H (S i) ltac:(lia)). cbn [nth] in H. rewrite <- H. f_equal. lia.
Qed.

Lemma opened_col id s col : opened id s col -> exists c, ncol_of id s = Some c /\ (col <> [] -> colv c col).
Proof.
  intros H. destruct H as [th m k p l st Hs Hp Hl Hc E | th m k p l c1 st Hs Hp Hl H1 Hc E Hne].
  - destruct (col_prepare th l Hp Hl) as (b1 & b2 & bc & bo & G & HL & EG & EL). assert (HW := lay_widths _ _ _ _ _ _ _ HL).
    destruct (col_setup_ok b1 b2 bc bo m ltac:(lia) ltac:(lia) ltac:(lia) _ k p G Hc HL) as (sp1 & E1 & Hh & Hv & He).
    rewrite E in E1. injection E1 as ->. cbn [ncol_of Z.eqb Pos.eqb]. eexists. split; [reflexivity|]. intros _.
    rewrite <- EG in Hs. assert (Hok : col_ok G) by (destruct HL; apply pairs_sorted; auto).
    assert (Em : nodup Z.eq_dec (map fst l) = map fst G).
    { replace (nodup Z.eq_dec (map fst l)) with (map fst (groups l)) by (unfold groups; rewrite map_map; apply map_id). rewrite <- EG, groups_pairs, map_map; [reflexivity|apply HL|apply Hok]. }
    rewrite Em. unfold colv, col_init, d_bfb. cbn [n_begin n_mem d_mem d_sp1 d_sp2 d_b1 d_bc d_bo].
    pose proof (ehere_bound b1 b2 bc bo m ltac:(lia) ltac:(lia) ltac:(lia) _ _ _ Hh) as Hb. set (bfb := Z.of_nat b1 + Z.of_nat bc + Z.of_nat bo) in *.
    assert (Hpos : 1 <= bfb) by (unfold bfb; lia). split; [|split].
    + apply vals_all; cbn [n_step n_end n_w n_mem]; [lia|rewrite map_length; lia|].
      intros i Hi. pose proof (ehere_nth b1 b2 bc bo m ltac:(lia) ltac:(lia) ltac:(lia) sp1 0 G (Z.of_nat i) Hh ltac:(lia)) as Hn. rewrite Nat2Z.id in Hn. exact Hn.
    + apply SS_fst. apply Hok.
    + rewrite map_length. unfold FU. nia.
  - destruct (col_prepare th l Hp Hl) as (b1 & b2 & bc & bo & G & HL & EG & EL). assert (HW := lay_widths _ _ _ _ _ _ _ HL).
    assert (Hs' : StronglySorted plt (pairs G)) by congruence.
    destruct (col_setup1_ok b1 b2 bc bo m ltac:(lia) ltac:(lia) ltac:(lia) _ k p G c1 Hc HL Hs' H1) as (st' & E1 & HC & _ & _).
    rewrite E in E1. injection E1 as <-. rewrite EG in HC. destruct (HC Hne) as (_ & _ & F1 & F2 & F3 & F4).
    cbn [ncol_of Z.eqb Pos.eqb]. eexists. split; [reflexivity|]. intros _. unfold colv. cbn [n_begin n_mem n_end]. rewrite F2, F3. unfold d_z2. rewrite F1.
    pose proof (vhere_bound b1 b2 bc bo m ltac:(lia) ltac:(lia) ltac:(lia) _ _ F4) as Hb. rewrite map_length in Hb. split; [|split].
    + apply vals_all; cbn [n_step n_end n_w n_mem]; [lia|rewrite map_length; lia|].
      intros i Hi. pose proof (vhere_nth b1 b2 bc bo m ltac:(lia) ltac:(lia) ltac:(lia) (d_sb2 st) _ (Z.of_nat i) F4 ltac:(lia)) as Hn. rewrite Nat2Z.id in Hn. exact Hn.
    + clear - Hs H1. unfold int64 in H1. induction Hs as [|x l Hs IH Hf]; cbn [filter map]; [constructor|]. destruct (pair_matches c1 (-1) x) eqn:Ex; auto. cbn [map]. constructor; auto.
      apply Forall_forall. intros y Hy. apply in_map_iff in Hy. destruct Hy as (z & <- & Hz). apply filter_In in Hz. destruct Hz as [Hz Ez].
      rewrite Forall_forall in Hf. specialize (Hf z Hz). unfold plt, pair_matches in *. lia.
    + rewrite map_length. unfold FU. nia.
Qed.

(** C36.  Without the early stop, exactly the values of the one column that are not in the other,
    in order. *)
Theorem C36_not_in : forall id s col id' s' col', opened id s col -> opened id' s' col' -> col <> [] -> col' <> [] ->
  columnNotIn id s id' s' false = Some (not_in col' col) /\ StronglySorted Z.lt (not_in col' col).
Proof.
  intros id s col id' s' col' H H' Hn Hn'. destruct (opened_col _ _ _ H) as (c & Ec & Hc). destruct (opened_col _ _ _ H') as (d & Ed & Hd).
  destruct (Hc Hn) as (V & S & L). destruct (Hd Hn') as (V' & S' & L'). unfold columnNotIn. rewrite Ec, Ed. unfold ni_run.
  split.
  2:{ unfold not_in. clear - S. induction S as [|x l S IH F]; cbn [filter]; [constructor|]. destruct (negb _); auto. constructor; auto.
      apply Forall_forall. intros y Hy. apply filter_In in Hy. rewrite Forall_forall in F. apply F, Hy. }
  destruct col as [|x l]; [congruence|]. destruct col' as [|o r]; [congruence|].
  assert (Ex : rdn (n_w c) (n_mem c) (n_begin c) = Some x) by apply V. assert (Eo : rdn (n_w d) (n_mem d) (n_begin d) = Some o) by apply V'. rewrite Ex, Eo.
  destruct (ni_merge_ok c d (FU (n_mem c) + FU (n_mem d)) x l o r _ _ V V' S S' ltac:(cbn in L, L'; lia)) as (out & p1 & tv & E & HP). rewrite E. cbn [fst snd].
  destruct HP as [[-> ->]|(rest & P1 & P2 & P3)]; [now rewrite Z.eqb_refl|]. destruct P1 as (R1 & R2 & R3).
  destruct (Z.eqb_spec p1 (n_end c)); [contradiction|]. rewrite (ni_rest_ok _ rest) by (auto; cbn in L; lia). congruence.
Qed.
Print Assumptions C36_not_in.

(** With the early stop the output is empty exactly if nothing is missing, and else has the first
    missing value. *)
Theorem C36_first_partial : forall id s col id' s' col', opened id s col -> opened id' s' col' -> col <> [] -> col' <> [] ->
  exists out, columnNotIn id s id' s' true = Some out /\
    match not_in col' col with [] => out = [] | x :: _ => out = [x] \/ out = [x; x] end.
Proof.
  intros id s col id' s' col' H H' Hn Hn'. destruct (opened_col _ _ _ H) as (c & Ec & Hc). destruct (opened_col _ _ _ H') as (d & Ed & Hd).
  destruct (Hc Hn) as (V & S & L). destruct (Hd Hn') as (V' & S' & L'). unfold columnNotIn. rewrite Ec, Ed. unfold ni_run.
  destruct col as [|x l]; [congruence|]. destruct col' as [|o r]; [congruence|].
  assert (Ex : rdn (n_w c) (n_mem c) (n_begin c) = Some x) by apply V. assert (Eo : rdn (n_w d) (n_mem d) (n_begin d) = Some o) by apply V'. rewrite Ex, Eo.
  destruct (ni_stop_ok c d (FU (n_mem c) + FU (n_mem d)) x l o r _ _ V V' S S' ltac:(cbn in L, L'; lia)) as (out & p1 & tv & E & HP). rewrite E. cbn [fst snd].
  destruct HP as [(-> & -> & E1)|(P1 & P2 & t & E1)]; rewrite E1.
  - rewrite Z.eqb_refl. eauto.
  - destruct (Z.eqb_spec p1 (n_end c)); [contradiction|]. eexists. split; [reflexivity|]. destruct P2 as [-> | ->]; auto.
Qed.
Print Assumptions C36_first_partial.

Example C36_case : exists s s', opened 1 s [1; 3; 7] /\ opened 2 s' [3; 4; 300] /\
  columnNotIn 1 s 2 s' false = Some [1; 7] /\ columnNotIn 2 s' 1 s false = Some [4; 300].
Proof.
  set (l := [(1, 4); (1, 9); (3, 4); (7, 2)]). set (l' := [(2, 8); (5, 3); (5, 4); (5, 300); (6, 1)]).
  set (m := [9; 9] ++ col_write 2 l). set (m' := col_write 100 l').
  assert (Hs : StronglySorted plt l) by (unfold l; ssort). assert (Hs' : StronglySorted plt l') by (unfold l'; ssort).
  assert (Hp : pairs_below56 l) by (intros a b Hab; in_cases Hab; lia). assert (Hp' : pairs_below56 l') by (intros a b Hab; in_cases Hab; lia).
  destruct (col_setup m 4 2 (2 + zl (col_write 2 l))) as [s|] eqn:E; [|vm_compute in E; discriminate].
  destruct (col_setup1 m' 4 5 0 (0 + zl (col_write 100 l'))) as [s'|] eqn:E'; [|vm_compute in E'; discriminate].
  exists s, s'. split; [|split].
  - apply (opened_first 2 m 4 2 l s); auto; [cbn; lia|]. exists [9; 9], []. split; [unfold m; now rewrite app_nil_r|reflexivity].
  - apply (opened_second 100 m' 4 0 l' 5 s'); auto; [cbn; lia|unfold int64; lia| |vm_compute; discriminate]. exists [], []. split; [unfold m'; now rewrite app_nil_r|reflexivity].
  - vm_compute in E, E'. injection E as <-. injection E' as <-. vm_compute. auto.
Qed.

(** Refuted: with the early stop the first missing value is written twice. *)
Theorem C36_stop_refuted : exists s s', opened 1 s [1; 3; 7] /\ opened 1 s' [2; 3; 8] /\ not_in [2; 3; 8] [1; 3; 7] = [1; 7] /\
  columnNotIn 1 s 1 s' true = Some [1; 1].
Proof.
  set (l := [(1, 4); (1, 9); (3, 4); (7, 2)]). set (l' := [(2, 8); (3, 3); (8, 4)]).
  set (m := col_write 2 l). set (m' := col_write 100 l').
  assert (Hs : StronglySorted plt l) by (unfold l; ssort). assert (Hs' : StronglySorted plt l') by (unfold l'; ssort).
  assert (Hp : pairs_below56 l) by (intros a b Hab; in_cases Hab; lia). assert (Hp' : pairs_below56 l') by (intros a b Hab; in_cases Hab; lia).
  destruct (col_setup m 4 0 (0 + zl (col_write 2 l))) as [s|] eqn:E; [|vm_compute in E; discriminate].
  destruct (col_setup m' 4 0 (0 + zl (col_write 100 l'))) as [s'|] eqn:E'; [|vm_compute in E'; discriminate].
  exists s, s'. split; [|split; [|split]].
  - apply (opened_first 2 m 4 0 l s); auto; [cbn; lia|]. exists [], []. split; [unfold m; now rewrite app_nil_r|reflexivity].
  - apply (opened_first 100 m' 4 0 l' s'); auto; [cbn; lia|]. exists [], []. split; [unfold m'; now rewrite app_nil_r|reflexivity].
  - reflexivity.
  - vm_compute in E, E'. injection E as <-. injection E' as <-. vm_compute. auto.
Qed.
Print Assumptions C36_stop_refuted.
