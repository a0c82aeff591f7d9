(** C34: the cache of ranges. *)
From Verif Require Import CidxModel CidxSpec CidxProofs CidxProofs2 CidxProofs3.
Local Open Scope Z_scope.

(** A sort for the examples. *)
Fixpoint binsert (x : block) (l : list block) : list block :=
  match l with [] => [x] | y :: t => if blt y x then y :: binsert x t else x :: l end.
Definition bsort (l : list block) : list block := fold_right binsert [] l.

(** Every sequence of stored ranges is kept: the entry of a key has exactly the ranges that were stored for it,
    each with its pairs. *)
Theorem C34_store : forall srt h, sorts_blocks srt -> Forall (fun x => let '(_, bs, ps) := x in Forall (inside ps) bs) h ->
  exists c, store_all srt [] h = Some c /\
    forall key, match getIndex c key with
    | None => stored_key key h = false
    | Some e => stored_key key h = true /\ Permutation (map (says (snd e)) (fst e)) (said key h)
    end.
Proof.
  intros srt h HS HF. destruct (store_all_holds srt h HS HF [] (fun _ => []) (fun _ => false)) as (c & E & H); [intros k; cbn; auto|].
  exists c. split; [exact E|]. intros key. specialize (H key). cbn in H. destruct (getIndex c key) as [e|]; [tauto|]. apply H.
Qed.
Print Assumptions C34_store.

(** If each stored list is ordered and the ranges of a key do not overlap, the entry of the key is ordered. *)
Lemma getIndex_store srt h : forall c c', sorts_blocks srt -> store_all srt c h = Some c' -> forall key,
  (forall e, getIndex c key = Some e -> ordered (fst e)) ->
  Forall (fun x => let '(_, bs, ps) := x in ordered bs /\ Forall (inside ps) bs) h ->
  forall e0, match getIndex c key with Some e => e0 = e /\ Forall (inside (snd e)) (fst e) | None => e0 = ([], []) end ->
  ForallOrdPairs apart (map (says (snd e0)) (fst e0) ++ said key h) -> forall e, getIndex c' key = Some e -> ordered (fst e).
Proof.
  induction h as [|[[k bs] ps] h IH]; intros c c' HS E key HO HF e0 He0 HA; cbn [store_all] in E.
  - injection E as <-. exact HO.
  - destruct (storeIdx srt c k bs ps) as [c1|] eqn:E1; [|discriminate]. inversion HF as [|? ? Hx HF']; subst. cbv beta iota in Hx. destruct Hx as [Ob Ib]. cbn [said flat_map] in HA. fold (said key h) in HA.
    unfold storeIdx in E1. destruct (getIndex c k) as [ek|] eqn:Gk.
    + destruct (Z.eq_dec k key) as [->|N].
      * rewrite Gk in He0. destruct He0 as [-> I0]. rewrite Z.eqb_refl in HA. destruct (add_ok bs ps Ib ek I0) as (e' & Ea & I2 & M & _). rewrite Ea in E1. injection E1 as <-.
        destruct (HS (fst e')) as [P _]. 
        assert (Hs : ForallOrdPairs apart (map (says (snd e')) (fst e'))). { rewrite M. clear - HA. rewrite app_assoc in HA. revert HA. generalize (map (says (snd ek)) (fst ek) ++ map (says ps) bs). intros l. induction l as [|x l IHl]; intros H; [constructor|]. inversion H as [|? ? H1 H2]; subst. apply Forall_app in H1 as [H1 _]. constructor; auto. }
        assert (Os : ordered (srt (fst e'))).
        { apply (sort_ordered srt _ (snd e') HS); [|exact Hs]. specialize (HO ek Gk). destruct HO as [_ F1]. destruct Ob as [_ F2].
          rewrite Forall_forall. intros b Hb. assert (Is : In (says (snd e') b) (map (says (snd ek)) (fst ek) ++ map (says ps) bs)) by (rewrite <- M; now apply in_map).
          rewrite Forall_forall in F1, F2. apply in_app_or in Is as [Is|Is]; apply in_map_iff in Is as (x & Ex & Hx); unfold says in Ex; injection Ex as X1 X2 _; rewrite <- X1, <- X2; auto. }
        apply (IH _ c' HS E key) with (e0 := (srt (fst e'), snd e')); auto.
        -- intros e. rewrite get_set, Z.eqb_refl. intros Ee. injection Ee as <-. exact Os.
        -- rewrite get_set, Z.eqb_refl. split; [reflexivity|]. cbn [fst snd]. exact (Permutation_Forall (Permutation_sym P) I2).
        -- cbn [fst snd]. rewrite app_assoc, <- M in HA. revert HA. apply Permutation_map with (f := says (snd e')) in P. apply Permutation_sym in P. revert P. generalize (map (says (snd e')) (fst e')) (map (says (snd e')) (srt (fst e'))) (said key h). clear. intros l l' m P. 
           assert (G : forall x y : list (Z * Z * pairs), Permutation x y -> ForallOrdPairs apart x -> ForallOrdPairs apart y).
           { intros x y Q. induction Q; intros H; auto.
             - inversion H as [|? ? H1 H2]; subst. constructor; auto. eapply Permutation_Forall; eauto.
             - inversion H as [|? ? H1 H2]; subst. inversion H2 as [|? ? H3 H4]; subst. inversion H1 as [|? ? H5 H6]; subst. constructor; [constructor; [unfold apart in *; tauto|auto]|constructor; auto]. }
           apply G. now apply Permutation_app_tail.
      * destruct (Z.eqb_spec k key); [congruence|]. cbn [app] in HA. destruct (addBlocks bs ps ek) as [e'|]; [|discriminate]. injection E1 as <-.
        apply (IH _ c' HS E key) with (e0 := e0); auto; rewrite get_set; destruct (Z.eqb_spec k key); try congruence; auto.
    + injection E1 as <-. destruct (Z.eq_dec k key) as [->|N].
      * rewrite Gk in He0. subst e0. rewrite Z.eqb_refl in HA. cbn [fst snd map app] in HA.
        apply (IH _ c' HS E key) with (e0 := (bs, ps)); auto; rewrite ?get_set, ?Z.eqb_refl; auto. intros e; rewrite ?get_set, ?Z.eqb_refl; intros Ee; injection Ee as <-; exact Ob.
      * destruct (Z.eqb_spec k key); [congruence|]. cbn [app] in HA.
        apply (IH _ c' HS E key) with (e0 := e0); auto; rewrite ?get_set; destruct (Z.eqb_spec k key); try congruence; auto.
        all: intros e; rewrite ?get_set; destruct (Z.eqb_spec k key); [congruence|]; apply HO.
Qed.
Theorem C34_ordered : forall srt h c key e, sorts_blocks srt -> Forall (fun x => let '(_, bs, ps) := x in ordered bs /\ Forall (inside ps) bs) h ->
  ForallOrdPairs apart (said key h) -> store_all srt [] h = Some c -> getIndex c key = Some e -> ordered (fst e).
Proof.
  intros srt h c key e HS HF HA E G. apply (getIndex_store srt h [] c HS E key) with (e0 := ([], [])); auto; cbn; discriminate || auto.
Qed.
Print Assumptions C34_ordered.

(** A request is found by the stored range that covers it, with its pairs, and a request that no range covers is
    not found.  Missing (refuted below): requests that no range of the key starts after. *)
Theorem C34_found_partial : forall srt h c key e v, sorts_blocks srt -> Forall (fun x => let '(_, bs, ps) := x in ordered bs /\ Forall (inside ps) bs) h ->
  ForallOrdPairs apart (said key h) -> store_all srt [] h = Some c -> getIndex c key = Some e ->
  0 <= v -> (exists x, In x (said key h) /\ v < fst (fst x)) ->
  exists r, searchBlock (fst e) v = Some r /\
    match r with
    | Some b => In (says (snd e) b) (said key h) /\ b_sk b <= v <= b_ek b
    | None => forall x, In x (said key h) -> ~ (fst (fst x) <= v <= snd (fst x))
    end.
Proof.
  intros srt h c key e v HS HF HA E G V (x & Ix & Lx). pose proof (C34_ordered srt h c key e HS HF HA E G) as Ho.
  destruct (C34_store srt h HS) as (c' & E' & H); [eapply Forall_impl; [|exact HF]; intros [[? ?] ?]; tauto|]. rewrite E in E'. injection E' as <-. specialize (H key). rewrite G in H. destruct H as [_ P].
  destruct (search_spec (fst e) v Ho V) as (r & Er & Hr).
  { apply search_some. apply Exists_exists. apply (Permutation_in _ (Permutation_sym P)) in Ix. apply in_map_iff in Ix as (b & <- & Ib). exists b. auto. }
  exists r. split; [exact Er|]. destruct r as [b|].
  - destruct Hr as [Ib Rb]. split; [|exact Rb]. apply (Permutation_in _ P). now apply in_map.
  - intros y Iy. apply (Permutation_in _ (Permutation_sym P)) in Iy. apply in_map_iff in Iy as (b & <- & Ib). exact (Hr b Ib).
Qed.
Print Assumptions C34_found_partial.

(** The iterator: any sequence of sessions, each of which asks for any first values of a key and then clears the iterator.
    As long as the end of the blocks is not dereferenced, each request delivers exactly the second values that there are,
    whether they are cached or not, and the blocks of each key are ordered. *)
Theorem C34_sessions_partial : forall srt rows fuel l out c, sorts_blocks srt ->
  Forall (fun x => Forall (fun c1 => 0 <= c1 /\ (length (rows (fst x) c1) <= fuel)%nat) (snd x)) l ->
  sessions fuel srt rows [] l = Some (out, c) ->
  out = map (fun x => map (rows (fst x)) (snd x)) l /\ forall key e, getIndex c key = Some e -> ordered (fst e).
Proof.
  intros srt rows fuel l out c HS HF E. destruct (sessions_ok srt rows fuel l HS HF [] out c) as [A B]; auto; [intros k e; discriminate|]. split; [exact A|]. intros key e G. apply (B key e G).
Qed.
Print Assumptions C34_sessions_partial.
(** The next session runs if for each request some cached range of the key starts after it, or nothing is cached for the key. *)
Theorem C34_next_session_partial : forall srt rows fuel l out c key cs, sorts_blocks srt ->
  Forall (fun x => Forall (fun c1 => 0 <= c1 /\ (length (rows (fst x) c1) <= fuel)%nat) (snd x)) (l ++ [(key, cs)]) ->
  sessions fuel srt rows [] l = Some (out, c) ->
  (forall e c1, getIndex c key = Some e -> In c1 cs -> exists b, In b (fst e) /\ c1 < b_sk b) ->
  exists c', session fuel srt rows c key cs = Some (map (rows key) cs, c').
Proof.
  intros srt rows fuel l out c key cs HS HF E H. apply Forall_app in HF as [HF1 HF2]. inversion HF2 as [|? ? HF3 _]; subst.
  destruct (sessions_ok srt rows fuel l HS HF1 [] out c) as [_ B]; auto; [intros k e; discriminate|].
  destruct (session_ok srt rows fuel c key cs HS B HF3) as (c' & Ec & _); [|eauto]. rewrite Forall_forall. intros c1 I e G. apply search_some. apply Exists_exists. destruct (H e c1 G I) as (b & Ib & L). eauto.
Qed.
Print Assumptions C34_next_session_partial.

(** A database: key 7 has some rows. *)
Definition ex_rows (key c1 : Z) : list Z :=
  if key =? 7 then if (5 <=? c1) && (c1 <=? 9) then [c1; 20 + c1] else if c1 =? 30 then [1] else [] else [].
(** Asking a second time for a value of the last cached range dereferences the end of the blocks. *)
Theorem C34_last_refuted : exists out c, sessions 9 bsort ex_rows [] [(7, [5; 6])] = Some (out, c) /\
  (exists e b, getIndex c 7 = Some e /\ In b (fst e) /\ b_sk b <= 5 <= b_ek b) /\ session 9 bsort ex_rows c 7 [5] = None.
Proof. do 2 eexists. split; [vm_compute; reflexivity|]. split; [|vm_compute; reflexivity]. do 2 eexists. split; [reflexivity|]. split; [left; reflexivity|]. cbn. lia. Qed.
Print Assumptions C34_last_refuted.
(** Overlapping requests: a value that was read and was in a block is lost when the blocks are made disjoint. *)
Theorem C34_lost_refuted : exists out c, sessions 9 bsort ex_rows [] [(7, [5; 6; 6; 7; 8; 7; 8; 9; 30])] = Some (out, c) /\
  ex_rows 7 9 <> [] /\ exists e, getIndex c 7 = Some e /\ searchBlock (fst e) 9 = Some None /\ searchBlock (fst e) 8 <> Some None.
Proof. do 2 eexists. split; [vm_compute; reflexivity|]. split; [vm_compute; discriminate|]. eexists. split; [reflexivity|]. split; vm_compute; [reflexivity|discriminate]. Qed.
Print Assumptions C34_lost_refuted.

Lemma binsert_perm x l : Permutation (binsert x l) (x :: l).
Proof. induction l as [|y l IH]; cbn; [reflexivity|]. destruct (blt y x); [|reflexivity]. rewrite IH. apply perm_swap. Qed.
Lemma blt_trans_ge a b c : blt b a = false -> blt c b = false -> blt c a = false.
Proof.
  unfold blt. destruct (Z.eqb_spec (b_sk b) (b_sk a)), (Z.eqb_spec (b_sk c) (b_sk b)), (Z.eqb_spec (b_sk c) (b_sk a)); rewrite ?Z.ltb_ge; lia.
Qed.
Lemma binsert_sorted x l : StronglySorted (fun a b => blt b a = false) l -> StronglySorted (fun a b => blt b a = false) (binsert x l).
Proof.
  induction 1 as [|y l H IH F]; cbn; [repeat constructor|]. destruct (blt y x) eqn:B.
  - constructor; [exact IH|]. eapply Permutation_Forall; [apply Permutation_sym, binsert_perm|]. constructor; [|exact F].
    unfold blt in *. rewrite Z.eqb_sym in B. destruct (Z.eqb_spec (b_sk x) (b_sk y)); rewrite ?Z.ltb_ge, ?Z.ltb_lt in *; lia.
  - constructor; [now constructor|]. constructor; [exact B|]. eapply Forall_impl; [|exact F]. intros z Hz. exact (blt_trans_ge x y z B Hz).
Qed.
Lemma bsort_sorts : sorts_blocks bsort.
Proof.
  intros l. induction l as [|x l [P Q]]; [split; constructor|]. cbn. split; [rewrite binsert_perm; now constructor|now apply binsert_sorted].
Qed.
Example C34_case : exists c, sessions 9 bsort ex_rows [] [(7, [8; 5; 6; 4; 30; 6]); (7, [6; 7; 8; 9; 10; 5]); (3, [1]); (7, [9; 7; 4])] =
    Some ([[[8; 28]; [5; 25]; [6; 26]; []; [1]; [6; 26]]; [[6; 26]; [7; 27]; [8; 28]; [9; 29]; []; [5; 25]]; [[]]; [[9; 29]; [7; 27]; []]], c) /\
  map (fun b => (b_sk b, b_ek b)) (match getIndex c 7 with Some e => fst e | None => [] end) = [(5, 6); (7, 7); (8, 8); (9, 9); (30, 30)].
Proof. eexists. split; vm_compute; reflexivity. Qed.
Example C34_hyps : sorts_blocks bsort /\ (forall e c1, getIndex [(7, ([mkB 5 6 0 4; mkB 30 30 4 5], []))] 7 = Some e -> In c1 [5; 6; 9] -> exists b, In b (fst e) /\ c1 < b_sk b).
Proof.
  split; [exact bsort_sorts|]. intros e c1 E I. injection E as <-. cbn. exists (mkB 30 30 4 5). split; [now right; left|]. destruct I as [<-|[<-|[<-|[]]]]; cbn; lia.
Qed.
Definition ex_stores : stores := [(7, [mkB 5 6 0 2; mkB 9 9 2 3], [(5, 1); (6, 2); (9, 3)]); (7, [mkB 7 7 1 2], [(0, 0); (7, 4)])].
Example C34_store_case : Forall (fun x => let '(_, bs, ps) := x in ordered bs /\ Forall (inside ps) bs) ex_stores /\ ForallOrdPairs apart (said 7 ex_stores) /\
  exists c e, store_all bsort [] ex_stores = Some c /\ getIndex c 7 = Some e /\ map (says (snd e)) (fst e) = [(5, 6, [(5, 1); (6, 2)]); (7, 7, [(7, 4)]); (9, 9, [(9, 3)])] /\
    (exists x, In x (said 7 ex_stores) /\ 6 < fst (fst x)).
Proof.
  split; [repeat constructor; cbn; lia|]. split; [repeat constructor; unfold apart; cbn; lia|]. do 2 eexists. split; [vm_compute; reflexivity|]. split; [reflexivity|]. split; [reflexivity|]. exists (9, 9, [(9, 3)]). split; [cbn; auto|cbn; lia].
Qed.
