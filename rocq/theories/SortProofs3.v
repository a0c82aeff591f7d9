(** Lemmas for SortModel: rounds, permutations, merging. *)
From Coq Require Import List ZArith Bool Arith Lia Sorting.Sorted Sorting.Permutation ZifyBool.
Import ListNotations.
From Verif Require Import ItrModel QueryModel FileModel InserterModel NodeModel QuerySpec InserterSpec SortModel SortSpec SortProofs SortProofs2.
Local Open Scope nat_scope.

Definition below (ic : bool) (q : quad) : Prop := bytes_lt (padrec ic) (rec_of ic q) = false.

Lemma recs_sorted ic L : Forall (fitsq ic) L -> StronglySorted ble (map (rec_of ic) L) -> sorted L.
Proof.
  intros HF HS. unfold sorted. induction L as [|x L IH]; cbn; [constructor|]. inversion HF; subst. cbn in HS. inversion HS; subst.
  constructor; auto. apply Forall_map. apply Forall_forall. intros y Hy. apply not_qlt_tle. rewrite Forall_forall in *.
  rewrite <- (rec_order ic) by auto. specialize (H4 (rec_of ic y) (in_map _ _ _ Hy)). unfold le in H4. now rewrite H4.
Qed.

Lemma repeat_sorted x m : StronglySorted ble (repeat x m).
Proof. induction m; cbn; constructor; auto. apply Forall_forall. intros y Hy. apply repeat_spec in Hy. subst. apply bytes_lt_irrefl. Qed.

(** Sorting with the padding puts the padding last. *)
Lemma sort_padded ic P C m arr : Forall (below ic) C ->
  Permutation arr (map (rec_of ic) C ++ repeat (padrec ic) m) ->
  exists L, Permutation L C /\ StronglySorted ble (map (rec_of ic) L) /\ sort_perm P arr = map (rec_of ic) L ++ repeat (padrec ic) m.
Proof.
  intros HB HP. set (S := lib_sort bytes_lt (map (rec_of ic) C)).
  assert (HS : Permutation S (map (rec_of ic) C)) by apply lib_sort_perm.
  destruct (Permutation_map_inv _ _ HS) as (L & EL & PL). exists L. split; [now symmetry|].
  assert (HSs : StronglySorted ble S) by apply lib_sort_sorted. rewrite <- EL. split; auto.
  apply (sorted_unique bytes_lt).
  - intros x y H1 H2. now apply bytes_anti.
  - apply sort_perm_sorted.
  - apply StronglySorted_app'; auto using repeat_sorted. intros x y Hx Hy. apply repeat_spec in Hy. subst y.
    apply (Permutation_in _ HS) in Hx. apply in_map_iff in Hx. destruct Hx as (q & <- & Hq). rewrite Forall_forall in HB. now apply HB.
  - rewrite sort_perm_perm, HP. now rewrite HS.
Qed.

Lemma map_of_rec ic L : Forall (fitsq ic) L -> map (of_rec ic) (map (rec_of ic) L) = L.
Proof. induction 1; cbn; auto. now rewrite of_rec_rec, IHForall. Qed.

Lemma perm_some p : is_perm p -> exists o, perm_positions p = Some o /\
  (forall w t, terms w t -> terms w (reorder o t)).
Proof.
  intros H. assert (Hp : p = 0%Z \/ p = 1%Z \/ p = 2%Z \/ p = 3%Z \/ p = 4%Z \/ p = 5%Z) by (unfold is_perm in H; lia).
  destruct Hp as [->|[->|[->|[->|[->| ->]]]]]; eexists; (split; [reflexivity|]); intros w [[a b] c] (H1 & H2 & H3); cbn; auto.
Qed.
Lemma view_fits p t : is_perm p -> terms 40 t -> fitsq false (counted (view p t)).
Proof.
  intros Hp Ht. destruct (perm_some p Hp) as (o & E & H). apply H in Ht. unfold view. rewrite E.
  destruct (reorder o t) as [[a b] c]. cbn. destruct Ht as (H1 & H2 & H3). repeat split; auto; lia.
Qed.
Lemma permute_view cur next t : is_perm cur -> is_perm next -> cur <> next ->
  permute1 cur next (rec_of false (counted (view cur t))) = rec_of false (counted (view next t)).
Proof.
  intros H1 H2 Hn. destruct (perm_some cur H1) as (o1 & E1 & _), (perm_some next H2) as (o2 & E2 & _).
  unfold view. rewrite E1, E2. now apply permute_rec.
Qed.

Notation vw p := (fun t => counted (view p t)).
Definition good_out (T : list triple) (p : Z) (d : list qlist) : Prop :=
  sorted (concat d) /\ Permutation (concat d) (map (vw p) T).

Lemma other_perms_ok ic P io n : io_ok P io -> forall perms cur arr, n <= length arr ->
  exists ds, other_perms ic P io cur perms n arr = Some ds /\ length ds = length perms /\
    (ic = false -> forall T, Forall (terms 40) T -> is_perm cur -> chain cur perms ->
       Permutation (firstn n arr) (map (fun t => rec_of false (counted (view cur t))) T) ->
       Forall2 (good_out T) perms ds).
Proof.
  intros Hio. induction perms as [|p perms IH]; intros cur arr Hn; cbn [other_perms].
  - exists []. repeat split; auto.
  - set (arr1 := sort_perm P (map (permute1 cur p) (firstn n arr))).
    assert (HP1 : Permutation arr1 (map (permute1 cur p) (firstn n arr))) by apply sort_perm_perm.
    assert (HL1 : length arr1 = n) by (rewrite (Permutation_length HP1), map_length, firstn_length; lia).
    destruct (dump_ok ic P io arr1 n Hio ltac:(lia)) as (d & E & Ed & _). rewrite E.
    destruct (IH p arr1 ltac:(lia)) as (ds & E2 & L2 & H2). rewrite E2. exists (d :: ds). split; auto. split; [cbn; lia|].
    intros -> T HT Hc (Hne & Hp & Hch) HP.
    assert (HPv : Permutation arr1 (map (rec_of false) (map (vw p) T))).
    { rewrite HP1, HP, !map_map. erewrite map_ext; [reflexivity|]. intros t. cbv beta. now apply permute_view. }
    assert (HF : firstn n arr1 = arr1) by (rewrite <- HL1; apply firstn_all).
    constructor.
    + assert (exists L, arr1 = map (rec_of false) L /\ Permutation (map (vw p) T) L) as (L & EL & PL).
      { destruct (Permutation_map_inv _ _ HPv) as (L & H). exists L. exact H. }
      assert (HL : Forall (fitsq false) L).
      { eapply Permutation_Forall; [exact PL|]. apply Forall_map. eapply Forall_impl; [|exact HT]. intros t Ht. now apply view_fits. }
      assert (Ec : concat d = L) by (rewrite Ed, HF, EL; now apply map_of_rec). split; rewrite Ec; [|now symmetry].
      apply (recs_sorted false); auto. rewrite <- EL. apply sort_perm_sorted.
    + apply H2; auto. rewrite HF, HPv. now rewrite map_map.
Qed.

Lemma list_sum_cnt (F : list part) : list_sum (map pcnt F) = length (concat (map fst F)).
Proof. induction F; cbn; auto. rewrite app_length. unfold list_sum in *. now rewrite IHF. Qed.

Lemma round_ok ic P io mi lastmi p0 perms junk sts : io_ok P io -> length sts = P ->
  length junk = (P - 1) * mi + lastmi -> 1 <= mi -> 1 <= lastmi ->
  Forall (fitsq ic) (concat sts) -> Forall (below ic) (concat sts) ->
  exists sts1 d ds C, round ic P io mi lastmi p0 perms junk sts = Some (sts1, d :: ds) /\ length sts1 = P /\
    Permutation (C ++ concat sts1) (concat sts) /\ (concat sts <> [] -> C <> []) /\
    sorted (concat d) /\ Permutation (concat d) C /\ length ds = length perms /\
    (ic = false -> forall T, Forall (terms 40) T -> is_perm p0 -> chain p0 perms -> Permutation C (map (vw p0) T) ->
       Forall2 (good_out T) perms ds).
Proof.
  intros Hio HL HJ Hmi Hlm HF HB. unfold round. set (lim := fun i => if i =? P - 1 then lastmi else mi).
  destruct Hio as (HP & Hio1 & Hio2).
  destruct (split_parts mi lastmi P (P - 1) 0 junk ltac:(lia) HJ) as (Js & EJ & LJ & HlayJ & HposJ). fold lim in HlayJ.
  destruct (load_all_ok ic mi lim sts 0 [] Js ltac:(lia) eq_refl HlayJ) as (F & sts1 & E1 & L1 & S1 & P1 & N1).
  cbn [app] in E1. rewrite EJ, E1. cbn [fst snd].
  rewrite <- L1 in HlayJ.
  assert (LF : length F = P). { rewrite <- (map_length plen), L1, map_length. lia. }
  destruct (fill_ok ic mi lim F [] (opened sts1) sts1 (2 * P + 1) ltac:(lia) (opened_ok _) HlayJ) as (F' & sts2 & E2 & L2 & S2 & P2 & Q2).
  cbn [app length] in E2, L2, P2, Q2. rewrite E2. cbn [fst snd].
  rewrite <- L2 in HlayJ. pose proof (pad_ok ic mi lim F' 0 [] eq_refl HlayJ) as E3. cbn [app] in E3. rewrite E3.
  set (C := concat (map fst F')).
  assert (PC : Permutation (C ++ concat sts2) (concat sts)) by (unfold C; rewrite P2; exact P1).
  assert (HCf : Forall (fitsq ic) C). { pose proof (Permutation_Forall (Permutation_sym PC) HF) as Hq. now apply Forall_app in Hq. }
  assert (HCb : Forall (below ic) C). { pose proof (Permutation_Forall (Permutation_sym PC) HB) as Hq. now apply Forall_app in Hq. }
  rewrite list_sum_cnt. fold C.
  destruct (sort_padded ic P C _ _ HCb (padded_perm ic F')) as (L & PL & SL & EL). fold C in EL. rewrite EL.
  set (arr4 := map (rec_of ic) L ++ repeat (padrec ic) (list_sum (map plen F') - length C)).
  assert (LL : length (map (rec_of ic) L) = length C) by (rewrite map_length; now apply Permutation_length).
  assert (HFn : firstn (length C) arr4 = map (rec_of ic) L).
  { unfold arr4. rewrite <- LL, firstn_app, Nat.sub_diag, firstn_all. cbn. apply app_nil_r. }
  assert (HLn : length C <= length arr4) by (unfold arr4; rewrite app_length, LL; lia).
  assert (Hio : io_ok P io) by (repeat split; auto).
  destruct (dump_ok ic P io arr4 (length C) Hio HLn) as (d & E4 & Ed & _). rewrite E4. rewrite HFn in Ed.
  assert (HLf : Forall (fitsq ic) L) by (eapply Permutation_Forall; [symmetry; exact PL|auto]).
  rewrite (map_of_rec ic L HLf) in Ed.
  destruct (other_perms_ok ic P io (length C) Hio perms p0 arr4 HLn) as (ds & E5 & L5 & H5). rewrite E5.
  exists sts2, d, ds, C. repeat split; auto; try congruence.
  - intros Hne EC. apply N1 in Hne.
    + apply Hne. fold C in Q2. rewrite EC in Q2. cbn in Q2. destruct (concat (map fst F)); auto. cbn in Q2. lia.
    + eapply Forall_impl; [|exact HposJ]. intros n [->| ->]; lia.
  - rewrite Ed. now apply (recs_sorted ic).
  - intros Hic T HT Hp Hch HPT. apply H5; auto. rewrite HFn, PL, HPT, map_map. subst ic. reflexivity.
Qed.

(** *** All rounds *)
Lemma sorted_files_cons k r rs : sorted_files k (r :: rs) = concat (nth k r []) :: sorted_files k rs.
Proof. reflexivity. Qed.

Definition good_files (T : list triple) (rs : list (list (list qlist))) (p : Z) (k : nat) : Prop :=
  Forall sorted (sorted_files k rs) /\ Permutation (concat (sorted_files k rs)) (map (vw p) T).

Lemma rounds_ok ic P io mi lastmi p0 perms junk : io_ok P io -> 1 <= mi -> 1 <= lastmi ->
  (forall k, length (junk k) = (P - 1) * mi + lastmi) ->
  forall fuel k sts, length sts = P -> length (concat sts) < fuel ->
  Forall (fitsq ic) (concat sts) -> Forall (below ic) (concat sts) ->
  exists rs, rounds fuel ic P io mi lastmi p0 perms junk k sts = Some rs /\
    Forall sorted (sorted_files 0 rs) /\ Permutation (concat (sorted_files 0 rs)) (concat sts) /\
    (ic = false -> is_perm p0 -> chain p0 perms -> forall T, Forall (terms 40) T -> Permutation (concat sts) (map (vw p0) T) ->
       forall i p, nth_error perms i = Some p -> good_files T rs p (S i)).
Proof.
  intros Hio Hmi Hlm HJ. induction fuel as [|fuel IH]; intros k sts HL Hf HF HB; [lia|]. cbn [rounds].
  destruct (forallb _ sts) eqn:E0.
  - exists []. split; auto. assert (EC : concat sts = []).
    { rewrite forallb_forall in E0. clear - E0. induction sts as [|s t IH]; auto. cbn.
      rewrite IH by (intros x Hx; apply E0; now right). specialize (E0 s (or_introl eq_refl)). now destruct s. }
    cbn. rewrite EC. split; [constructor|]. split; auto. intros _ _ _ T _ HT i p _. apply Permutation_nil in HT.
    destruct T; [|discriminate]. split; cbn; auto.
  - destruct (round_ok ic P io mi lastmi p0 perms (junk k) sts Hio HL (HJ k) Hmi Hlm HF HB) as
      (sts1 & d & ds & C & E & L1 & PC & NC & Sd & Pd & Ld & Hds).
    rewrite E. assert (Hne : concat sts <> []).
    { intros EC. enough (forallb (fun st : qlist => match st with [] => true | _ => false end) sts = true) by congruence.
      clear - EC. induction sts as [|s t IH]; auto. cbn in *. apply app_eq_nil in EC. destruct EC as [-> EC]. now apply IH. }
    apply NC in Hne.
    pose proof (Permutation_Forall (Permutation_sym PC) HF) as HF1. apply Forall_app in HF1. destruct HF1 as [_ HF1].
    pose proof (Permutation_Forall (Permutation_sym PC) HB) as HB1. apply Forall_app in HB1. destruct HB1 as [_ HB1].
    assert (Hlen : length (concat sts1) < fuel).
    { apply Permutation_length in PC. rewrite app_length in PC. destruct C; [easy|]. cbn in PC. lia. }
    destruct (IH (S k) sts1 L1 Hlen HF1 HB1) as (rs & E2 & S2 & P2 & H2). rewrite E2.
    exists ((d :: ds) :: rs). split; auto. rewrite sorted_files_cons. cbn [nth concat]. split; [constructor; auto|].
    split; [now rewrite P2, Pd|].
    intros Hic Hp Hch T HT HPT i p Hi.
    assert (HPm : Permutation (C ++ concat sts1) (map (vw p0) T)) by now rewrite PC.
    destruct (Permutation_map_inv _ _ HPm) as (T' & ET & PT). symmetry in ET; apply map_eq_app in ET. destruct ET as (T1 & T2 & -> & ET1 & ET2).
    pose proof (Permutation_Forall PT HT) as HT12. apply Forall_app in HT12. destruct HT12 as [HT1 HT2].
    pose proof (Hds Hic T1 HT1 Hp Hch ltac:(rewrite <- ET1; reflexivity)) as G1.
    destruct (H2 Hic Hp Hch T2 HT2 ltac:(rewrite <- ET2; reflexivity) i p Hi) as [G2 G3].
    unfold good_files. rewrite sorted_files_cons. cbn [nth concat].
    assert (G : good_out T1 p (nth i ds [])).
    { clear - G1 Hi. revert i Hi. induction G1 as [|a b la lb Hab H IH]; intros [|i] Hi; cbn in *; try discriminate; auto.
      injection Hi as ->. exact Hab. }
    destruct G as [G4 G5]. split; [constructor; auto|]. rewrite G5, G3, PT. now rewrite map_app.
Qed.

(** *** The streams *)
Lemma deal_ok P : 1 <= P -> forall files cur inputs, length inputs = P -> cur < P ->
  length (deal P cur files inputs) = P /\ Permutation (concat (deal P cur files inputs)) (concat inputs ++ concat files).
Proof.
  intros HP. induction files as [|f t IH]; intros cur inputs HL Hc; cbn [deal].
  - cbn. rewrite app_nil_r. auto.
  - destruct (IH ((cur + 1) mod P) (set_nth inputs cur (nth cur inputs [] ++ f))) as [L E].
    { now rewrite set_nth_length. } { apply Nat.mod_upper_bound. lia. }
    split; auto. rewrite E. cbn [concat]. rewrite app_assoc. apply Permutation_app_tail.
    clear - HL Hc. rewrite <- HL in Hc. clear HL. revert cur Hc. induction inputs as [|x l IH]; intros [|cur] Hc; cbn in *; try lia.
    + rewrite <- !app_assoc. apply Permutation_app_head, Permutation_app_comm.
    + rewrite IH by lia. now rewrite app_assoc.
Qed.

Lemma mapo_map {A B} (f : A -> option B) g l : (forall x, In x l -> f x = Some (g x)) -> mapo f l = Some (map g l).
Proof. induction l as [|x l IH]; intros H; cbn; auto. rewrite (H x) by now left. rewrite IH; auto. intros y Hy. apply H. now right. Qed.

Lemma NoDup_map_inj {A B} (f : A -> B) l : NoDup l -> (forall x y, In x l -> In y l -> f x = f y -> x = y) -> NoDup (map f l).
Proof.
  induction 1 as [|x l Hx H IH]; intros Hf; cbn; constructor.
  - intros Hin. apply in_map_iff in Hin. destruct Hin as (y & E & Hy). apply Hx.
    rewrite <- (Hf y x); auto; [now right|now left].
  - apply IH. intros a b Ha Hb. apply Hf; now right.
Qed.
Lemma concat_perm {A} (l1 l2 : list (list A)) : Permutation l1 l2 -> Permutation (concat l1) (concat l2).
Proof.
  induction 1; cbn; auto.
  - now apply Permutation_app_head.
  - rewrite !app_assoc. apply Permutation_app_tail, Permutation_app_comm.
  - etransitivity; eauto.
Qed.
Lemma map_nth_seq {A} (d : A) (l : list A) : map (fun j => nth j l d) (seq 0 (length l)) = l.
Proof.
  induction l as [|x l IH]; auto. cbn [length seq map nth]. f_equal. rewrite <- seq_shift, map_map. exact IH.
Qed.

Lemma streams_ok P io inputs : io_ok P io -> length inputs = P ->
  exists sts, streams P io inputs = Some sts /\ length sts = P /\ Permutation (concat sts) (concat inputs).
Proof.
  intros Hio HL. destruct (io_div P io Hio) as [E1 E2]. destruct Hio as (HP & Hi & _). unfold streams.
  replace (Nat.eqb io 0) with false by (symmetry; apply Nat.eqb_neq; lia).
  set (fpr := P / io) in *. set (g := fun i => i mod io * fpr + i / io).
  assert (Hdm : forall i, i < P -> i = io * (i / io) + i mod io /\ i mod io < io /\ i / io < fpr).
  { intros i Hlt. split; [apply Nat.div_mod; lia|]. split; [apply Nat.mod_upper_bound; lia|]. apply Nat.div_lt_upper_bound; lia. }
  rewrite (mapo_map _ (fun i => nth (g i) inputs [])).
  2:{ intros i Hin. apply in_seq in Hin. destruct (Hdm i ltac:(lia)) as (_ & _ & H).
      replace (Nat.ltb (i / io) fpr) with true by (symmetry; now apply Nat.ltb_lt). reflexivity. }
  eexists. split; [reflexivity|]. split; [now rewrite map_length, seq_length|].
  assert (HPm : Permutation (map g (seq 0 P)) (seq 0 P)).
  { apply NoDup_Permutation_bis.
    - apply NoDup_map_inj; [apply seq_NoDup|]. intros x y Hx Hy E. apply in_seq in Hx, Hy.
      destruct (Hdm x ltac:(lia)) as (X1 & X2 & X3), (Hdm y ltac:(lia)) as (Y1 & Y2 & Y3). unfold g in E.
      assert (x mod io = y mod io /\ x / io = y / io) as [EA EB].
      { clear - E X3 Y3. revert E X3 Y3. generalize (x mod io) (y mod io) (x / io) (y / io). intros a a' b b' E H1 H2.
        destruct (Nat.lt_trichotomy a a') as [L|[L|L]]; nia. }
      rewrite X1, Y1, EA, EB. reflexivity.
    - now rewrite map_length.
    - intros j Hj. apply in_map_iff in Hj. destruct Hj as (i & <- & Hin). apply in_seq in Hin. apply in_seq.
      destruct (Hdm i ltac:(lia)) as (_ & H1 & H2). unfold g. nia. }
  rewrite <- (map_map g (fun j => nth j inputs [])). apply concat_perm. rewrite HPm. rewrite <- HL. now rewrite map_nth_seq.
Qed.

(** *** sortChunks2 *)
Lemma nelem_parts maxn est P : 1 <= P ->
  let ne := nelem maxn est P in let mi := Nat.max 1 (ne / P) in let lastmi := mi + (ne - mi * P) in
  1 <= mi /\ 1 <= lastmi /\ ne = (P - 1) * mi + lastmi.
Proof.
  intros HP. cbv zeta. set (ne := nelem maxn est P). assert (P <= ne) by (unfold ne, nelem; lia).
  assert (1 <= ne / P) by (apply Nat.div_le_lower_bound; lia).
  pose proof (Nat.mul_div_le ne P ltac:(lia)). replace (Nat.max 1 (ne / P)) with (ne / P) by lia. nia.
Qed.

(** The number of reading threads divides the number of threads, or there are fewer files than threads. *)
Definition threads_ok (ionthreads nthreads : nat) (files : list qlist) : Prop :=
  1 <= nthreads /\ ((1 < nthreads /\ length files < nthreads) \/ (1 <= ionthreads /\ nthreads mod ionthreads = 0)).

Lemma sort_chunks_ok ic ionthreads nthreads maxn est p0 perms junk files : threads_ok ionthreads nthreads files ->
  (forall k, nelem maxn est (psize nthreads files) <= length (junk k)) ->
  Forall (fitsq ic) (concat files) -> Forall (below ic) (concat files) ->
  exists rs, sort_chunks ic ionthreads nthreads maxn est p0 perms junk files = Some rs /\
    Forall sorted (sorted_files 0 rs) /\ Permutation (concat (sorted_files 0 rs)) (concat files) /\
    (ic = false -> is_perm p0 -> chain p0 perms -> forall T, Forall (terms 40) T -> Permutation (concat files) (map (vw p0) T) ->
       forall i p, nth_error perms i = Some p -> good_files T rs p (S i)).
Proof.
  intros [Hn Hio] HJ HF HB. unfold sort_chunks. set (P := psize nthreads files) in *.
  assert (HP : 1 <= P) by (unfold P, psize; lia).
  destruct (nelem_parts maxn est P HP) as (Hmi & Hlm & Hne).
  set (io := if P <? nthreads then 1 else ionthreads).
  assert (Hok : io_ok P io).
  { unfold io. destruct (Nat.ltb_spec P nthreads) as [H|H]; [repeat split; auto|].
    destruct Hio as [Hio|[Hio1 Hio2]]; [unfold P, psize in H; lia|]. repeat split; auto.
    replace P with nthreads; auto. unfold P, psize in *. lia. }
  destruct (deal_ok P HP files 0 (repeat [] P)) as [LD PD]; [apply repeat_length|lia|].
  destruct (streams_ok P io _ Hok LD) as (sts & E & L & PS). rewrite E.
  assert (PF : Permutation (concat sts) (concat files)).
  { rewrite PS, PD. replace (concat (repeat [] P)) with (@nil quad); auto. clear. induction P; auto. }
  destruct (rounds_ok ic P io _ _ p0 perms (fun k => firstn (nelem maxn est P) (junk k)) Hok Hmi Hlm) with (fuel := S (length (concat sts))) (k := 0) (sts := sts)
    as (rs & E2 & S2 & P2 & H2); auto.
  - intros k. cbv beta. rewrite firstn_length, Nat.min_l by apply HJ. exact Hne.
  - eapply Permutation_Forall; [symmetry; exact PF|auto].
  - eapply Permutation_Forall; [symmetry; exact PF|auto].
  - exists rs. split; auto. split; auto. split; [now rewrite P2|]. intros Hic Hp Hch T HT HPT. apply H2; auto. now rewrite PF.
Qed.

(** *** Merging *)
Lemma quad_total x y : quad_lt x y = true -> quad_lt y x = false.
Proof. destruct x as [[[a b] c] n], y as [[[a' b'] c'] n']. cbn. lia. Qed.
Lemma quad_le_trans x y z : quad_lt y x = false -> quad_lt z y = false -> quad_lt z x = false.
Proof. destruct x as [[[a b] c] n], y as [[[a' b'] c'] n'], z as [[[a2 b2] c2] n2]. cbn. lia. Qed.
Lemma quad_le_tle x y : le quad_lt x y <-> tle (fst x) (fst y).
Proof. destruct x as [[[a b] c] n], y as [[[a' b'] c'] n']. unfold le. cbn. lia. Qed.
Lemma sorted_le l : sorted l <-> StronglySorted (le quad_lt) l.
Proof.
  unfold sorted. induction l as [|x l IH]; cbn; [split; constructor|]. split; intros H; inversion H as [|? ? H1 H2]; subst; constructor.
  - now apply IH.
  - rewrite Forall_map in H2. eapply Forall_impl; [|exact H2]. intros y. now rewrite quad_le_tle.
  - now apply IH.
  - rewrite Forall_map. eapply Forall_impl; [|exact H2]. intros y. now rewrite quad_le_tle.
Qed.

Lemma kmerge_ok files : Forall sorted files -> sorted (kmerge files) /\ Permutation (kmerge files) (concat files).
Proof.
  induction 1 as [|f t Hf H [IH1 IH2]]; cbn; [split; [constructor|auto]|]. split.
  - rewrite sorted_le in *. apply lib_merge_sorted; auto; [apply quad_total|intros; eapply quad_le_trans; eauto].
  - rewrite lib_merge_perm. unfold kmerge in IH2. now rewrite IH2.
Qed.

Lemma merge_pass_ok : forall fuel files, length files <= fuel -> Forall sorted files ->
  exists r, merge_pass fuel files = Some r /\ Forall sorted r /\ Permutation (concat r) (concat files) /\
    (length r <= length files) /\ (2 <= length files -> length r < length files).
Proof.
  induction fuel as [|fuel IH]; intros files HL HF.
  - destruct files; [|cbn in HL; lia]. exists []. cbn. repeat split; auto; lia.
  - cbn [merge_pass]. destruct files as [|f t]; [exists []; cbn; repeat split; auto; lia|].
    set (files := f :: t) in *. destruct (IH (skipn 4 files)) as (r & E & S & P & L1 & L2).
    { rewrite skipn_length. cbn in *. lia. }
    { rewrite <- (firstn_skipn 4 files) in HF. now apply Forall_app in HF. }
    rewrite E. destruct (kmerge_ok (firstn 4 files)) as [K1 K2].
    { rewrite <- (firstn_skipn 4 files) in HF. now apply Forall_app in HF. }
    eexists. split; [reflexivity|]. split; [constructor; auto|]. split.
    + cbn [concat]. rewrite K2, P, <- concat_app. now rewrite firstn_skipn.
    + rewrite skipn_length in L1. assert (1 <= length files) by (unfold files; cbn; lia). cbn [length]. split; lia.
Qed.

Lemma fragments_ok : forall fuel files, length files <= fuel -> Forall sorted files ->
  exists r, fragments fuel files = Some r /\ Forall sorted r /\ Permutation (concat r) (concat files) /\ length r <= 2.
Proof.
  induction fuel as [|fuel IH]; intros files HL HF; cbn [fragments].
  - destruct files; [|cbn in HL; lia]. exists []. cbn. repeat split; auto.
  - destruct (Nat.leb_spec (length files) 2) as [H|H]; [exists files; auto|].
    destruct (merge_pass_ok (length files) files) as (r & E & S & P & L1 & L2); auto. rewrite E.
    destruct (IH r) as (r2 & E2 & S2 & P2 & L3); auto; [lia|]. exists r2. repeat split; auto. now rewrite P2.
Qed.

Lemma sorted_input_ok k rs : Forall sorted (sorted_files k rs) ->
  exists q, sorted_input k rs = Some q /\ sorted q /\ Permutation q (concat (sorted_files k rs)).
Proof.
  intros H. unfold sorted_input. destruct (fragments_ok (length (sorted_files k rs)) (sorted_files k rs)) as (r & E & S & P & _); auto.
  rewrite E. destruct (kmerge_ok r S) as [K1 K2]. eexists. split; [reflexivity|]. split; auto. now rewrite K2.
Qed.

(** *** Permutations in blocks *)
Definition sorter_ok (g : sorter) : Prop :=
  1 <= so_threads g /\ 1 <= so_io g /\ so_threads g mod so_io g = 0 /\
  forall k, nelem (so_max g) (so_est g) (so_threads g) <= length (so_junk g k).

Lemma sort_one_ok g p files : sorter_ok g -> Forall (fitsq false) (concat files) -> Forall (below false) (concat files) ->
  exists fs, sort_one g p files = Some fs /\ Forall sorted fs /\ Permutation (concat fs) (concat files).
Proof.
  intros (H1 & H2 & H3 & H4) HF HB. unfold sort_one.
  destruct (sort_chunks_ok false (so_io g) (so_threads g) (so_max g) (so_est g) p [] (so_junk g) files) as (rs & E & S & P & _); auto.
  - split; auto.
  - intros k. specialize (H4 k). unfold nelem, psize in *. lia.
  - rewrite E. destruct (fragments_ok (length rs) (sorted_files 0 rs)) as (r & E2 & S2 & P2 & _); auto.
    + unfold sorted_files. now rewrite map_length.
    + exists r. repeat split; auto. now rewrite P2.
Qed.

Lemma new_perm_ok g a0 a1 a2 files : sorter_ok g ->
  exists nf, new_perm (so_threads g) (so_io g) a0 a1 a2 files = Some nf /\ Permutation (concat nf) (map (new_perm1 a0 a1 a2) (concat files)).
Proof.
  intros (H1 & H2 & H3 & _). unfold new_perm.
  destruct (deal_ok (so_threads g) H1 files 0 (repeat [] (so_threads g))) as [LD PD]; [apply repeat_length|lia|].
  destruct (streams_ok (so_threads g) (so_io g) _ (conj H1 (conj H2 H3)) LD) as (sts & E & L & PS). rewrite E.
  eexists. split; [reflexivity|]. rewrite <- concat_map. apply Permutation_map. rewrite PS, PD.
  replace (concat (repeat [] (so_threads g))) with (@nil quad); auto. clear. induction (so_threads g); auto.
Qed.

(** Records up to the filler. *)
Lemma below_tle q : fitsq false q -> tle (fst q) (filler, filler, filler) -> below false q.
Proof.
  intros Hf Ht. unfold below. change (padrec false) with (rec_of false (counted (filler, filler, filler))).
  destruct (bytes_lt _ _) eqn:E; auto. exfalso. apply rec_order in E; auto.
  - unfold qlt in E. destruct q as [[[a b] c] n]. cbn in *. unfold tle, tlt in *. lia.
  - cbn. unfold filler. lia.
Qed.
Lemma below_count q : fitsq true q -> tle (fst q) (filler, filler, filler) -> below true q.
Proof.
  intros Hf Ht. unfold below. change (padrec true) with (rec_of true ((filler, filler, 72340172838076673%Z), filler)).
  destruct (bytes_lt _ _) eqn:E; auto. exfalso. apply rec_order in E; auto.
  - unfold qlt in E. destruct q as [[[a b] c] n]. cbn in *. unfold tle, tlt, filler in *. destruct E as [E|[E _]]; [lia|injection E; lia].
  - cbn. unfold filler. lia.
Qed.

(** [x] says where s, p and o are in the records of permutation [p]. *)
Definition places (x : poss) (p : Z) : Prop := forall t, new_perm1 (ps x) (pp x) (po x) (vw p t) = counted t.

Lemma block_args_ok p x cur a0 a1 a2 x1 : block_args p x = Some (a0, a1, a2, x1) -> places x cur ->
  (forall t, new_perm1 a0 a1 a2 (vw cur t) = vw p t) /\ (p <> IDX_PSO -> places x1 p).
Proof.
  intros E HP. unfold block_args in E. unfold places in HP |- *.
  assert (H : forall i j k (t : triple), new_perm1 i j k (vw cur t) = (let '(s, p, o) := fst (vw cur t) in
    let f n := match n with O => s | S O => p | _ => o end in (f i, f j, f k, 0%Z))).
  { intros i j k t. unfold counted, new_perm1. destruct (view cur t) as [[a b] c]. reflexivity. }
  repeat match type of E with (if ?b then _ else _) = _ => destruct b eqn:?; [injection E as <- <- <- <-|] end; [..|discriminate];
  (assert (p = IDX_OPS \/ p = IDX_SOP \/ p = IDX_OSP \/ p = IDX_POS \/ p = IDX_PSO) as HH by lia);
  destruct HH as [->|[->|[->|[->| ->]]]]; try discriminate;
  (split; [intros [[s q] o]; specialize (HP (s, q, o)); rewrite H in HP |- *; cbv beta iota zeta in HP |- *;
     destruct (fst (vw cur (s, q, o))) as [[a b] c]; unfold counted in HP; injection HP as E1 E2 E3; rewrite E1, E2, E3; reflexivity
    |intros NE; try (now elim NE); intros [[s q] o]; reflexivity]).
Qed.

Lemma blocks_ok g T : sorter_ok g -> Forall (terms 40) T -> Forall (fun t => let '(a, b, c) := t in a <= filler /\ b <= filler /\ c <= filler)%Z T ->
  forall perms x cur files, is_perm cur -> places x cur -> Permutation (concat files) (map (vw cur) T) ->
  Forall (fun p => In p [IDX_OPS; IDX_SOP; IDX_OSP; IDX_POS; IDX_PSO]) perms -> ~ In IDX_PSO (removelast perms) ->
  exists r, blocks g x perms files = Some r /\
    Forall2 (fun p q => sorted q /\ Permutation q (map (vw p) T)) perms r.
Proof.
  intros Hg HT HF. induction perms as [|p perms IH]; intros x cur files Hc Hx HP Hin Hps.
  - exists []. split; [reflexivity|constructor].
  - inversion Hin as [|? ? Hp Hin']; subst. cbn [blocks].
    destruct (block_args p x) as [[[[a0 a1] a2] x1]|] eqn:EA.
    2:{ exfalso. cbn in Hp. destruct Hp as [<-|[<-|[<-|[<-|[<-|[]]]]]]; discriminate. }
    destruct (block_args_ok _ _ _ _ _ _ _ EA Hx) as [H1 H2].
    destruct (new_perm_ok g a0 a1 a2 files Hg) as (nf & E1 & P1). rewrite E1.
    assert (PN : Permutation (concat nf) (map (vw p) T)).
    { rewrite P1, HP, map_map. erewrite map_ext; [reflexivity|exact H1]. }
    assert (Ip : is_perm p) by (cbn in Hp; unfold is_perm; destruct Hp as [<-|[<-|[<-|[<-|[<-|[]]]]]]; vm_compute; split; discriminate).
    destruct (sort_one_ok g p nf Hg) as (fs & E2 & S2 & P2).
    + eapply Permutation_Forall; [symmetry; exact PN|]. apply Forall_map. eapply Forall_impl; [|exact HT]. intros t Ht. now apply view_fits.
    + eapply Permutation_Forall; [symmetry; exact PN|]. apply Forall_map.
      rewrite Forall_forall in HT, HF |- *. intros t Ht. apply below_tle; [now apply view_fits; auto|].
      specialize (HF t Ht). destruct (perm_some p Ip) as (o & E & _). unfold view. rewrite E. destruct t as [[a b] c].
      assert (HX : forall i, (field (a, b, c) i <= filler)%Z) by (intros [|[|i]]; cbn; tauto).
      unfold reorder. pose proof (HX (nth 0 o 0)). pose proof (HX (nth 1 o 0)). pose proof (HX (nth 2 o 0)). cbn [fst counted]. unfold tle. lia.
    + rewrite E2. destruct (kmerge_ok fs S2) as [K1 K2].
      assert (PF : Permutation (concat fs) (map (vw p) T)) by now rewrite P2.
      destruct perms as [|p' perms].
      * eexists. split; [reflexivity|]. constructor; [|constructor]. split; auto. now rewrite K2.
      * destruct (IH x1 p fs) as (r & E3 & F3); auto.
        { apply H2. intros ->. apply Hps. now left. }
        { intros H. apply Hps. now right. }
        rewrite E3. eexists. split; [reflexivity|]. constructor; auto. split; auto. now rewrite K2.
Qed.
