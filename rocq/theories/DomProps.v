(** C72: domain descriptions never exclude a value that can match. *)
From Coq Require Import ZifyBool.
From Verif Require Import DomModel DomSpec DomProofs.
Local Open Scope Z_scope.

(** The descriptions that operators can build: the values seen by an operator, and the restrictions
    and synchronisations of the potential values, in any order. *)
Inductive obs : list Z -> dom -> Prop :=
| obs_new : obs [] observed
| obs_add vs d v : obs vs d -> uint64 v -> obs (vs ++ [v]) (add d v).
Inductive pot : dom -> Prop :=
| pot_new : pot potential
| pot_restrict d vs o : pot d -> obs vs o -> pot (restrictTo d o)
| pot_sync1 a b : pot a -> pot b -> pot (fst (sync a b))
| pot_sync2 a b : pot a -> pot b -> pot (snd (sync a b)).
Lemma obs_wf vs d : obs vs d -> wf d.
Proof. induction 1; [apply wf_observed|now apply add_wf]. Qed.
Lemma sync_eq a b : sync a b = (mkDom (Z.max (d_min a) (d_min b)) (Z.min (d_max a) (d_max b)) (land_words (d_filter a) (d_filter b)), mkDom (Z.max (d_min a) (d_min b)) (Z.min (d_max a) (d_max b)) (land_words (d_filter a) (d_filter b))).
Proof. unfold sync. f_equal; f_equal; destruct (Z.ltb_spec (d_min a) (d_min b)), (Z.ltb_spec (d_max b) (d_max a)); try reflexivity; try lia; match goal with |- context [if ?x <? ?y then _ else _] => destruct (Z.ltb_spec x y) end; lia. Qed.
Lemma restrict_eq a b : restrictTo a b = mkDom (Z.max (d_min a) (d_min b)) (Z.min (d_max a) (d_max b)) (land_words (d_filter a) (d_filter b)).
Proof. unfold restrictTo. f_equal; [destruct (Z.ltb_spec (d_min a) (d_min b))|destruct (Z.ltb_spec (d_max b) (d_max a))]; lia. Qed.
Lemma pot_wf d : pot d -> wf d.
Proof.
  induction 1; [apply wf_potential| | |].
  - rewrite restrict_eq. apply inter_wf; auto. eapply obs_wf; eauto.
  - rewrite sync_eq. now apply inter_wf.
  - rewrite sync_eq. now apply inter_wf.
Qed.

(** Every value that was seen qualifies. *)
Theorem C72_observed : forall vs d v, obs vs d -> In v vs -> couldQualify d v = true.
Proof.
  induction 1 as [|vs d x O IH U]; intros I; [destruct I|]. apply in_app_or in I as [I|[<-|[]]]; [apply add_could; [now apply obs_wf in O|auto]|apply add_self; now apply obs_wf in O].
Qed.
(** A new potential domain excludes nothing. *)
Theorem C72_potential : forall v, uint64 v -> couldQualify potential v = true.
Proof. exact potential_all. Qed.
(** A restriction keeps exactly what both sides allow, and so does each side of a synchronisation. *)
Theorem C72_restrict : forall d vs o v, pot d -> obs vs o -> couldQualify (restrictTo d o) v = couldQualify d v && couldQualify o v.
Proof. intros d vs o v P O. apply pot_wf in P. apply obs_wf in O. rewrite restrict_eq. apply inter_could; auto; [apply P|apply O]. Qed.
Theorem C72_sync : forall a b v, pot a -> pot b ->
  couldQualify (fst (sync a b)) v = couldQualify a v && couldQualify b v /\ couldQualify (snd (sync a b)) v = couldQualify a v && couldQualify b v.
Proof. intros a b v PA PB. apply pot_wf in PA, PB. rewrite sync_eq. split; apply inter_could; auto; apply PA || apply PB. Qed.
(** nextCandidate answers the least value from the given one on that qualifies, or UINT64_MAX if there
    is none, for values that are not within 8192 of 2^64. *)
Theorem C72_next : forall d v, pot d -> uint64 v -> v + 8192 < 2 ^ 64 -> d_min d + 8192 < 2 ^ 64 ->
  exists r, nextCandidate d v = Some r /\
    (least_from (fun w => couldQualify d w = true) v r \/ r = umax /\ forall w, v <= w -> couldQualify d w = false).
Proof. intros d v P U A B. exact (next_ok d v (pot_wf d P) U A B). Qed.
(** A domain that was restricted to seen values has a candidate at or before each of them that it
    still allows: skipping to the candidate skips no such value. *)
Theorem C72_no_skip : forall d v w, pot d -> uint64 v -> v + 8192 < 2 ^ 64 -> d_min d + 8192 < 2 ^ 64 ->
  v <= w -> couldQualify d w = true -> exists r, nextCandidate d v = Some r /\ v <= r <= w.
Proof.
  intros d v w P U A B L Q. destruct (C72_next d v P U A B) as (r & E & [(G1 & G2 & G3)|[-> N]]); exists r || exists umax; split; auto; try (split; auto; fail). now rewrite N in Q.
Qed.
(** Near 2^64 the search wraps around: the answer is smaller than the value asked for. *)
Definition dtop : dom := restrictTo (restrictTo potential (add (add observed 5) (2 ^ 64 - 2))) (add (add observed 5) (2 ^ 64 - 1)).
Theorem C72_next_top_refuted : pot dtop /\ nextCandidate dtop (2 ^ 64 - 8) = Some 5 /\ forall w, 2 ^ 64 - 8 <= w -> couldQualify dtop w = false.
Proof.
  split; [eapply pot_restrict; [eapply pot_restrict; [constructor|]|]; (apply (obs_add [5]); [apply (obs_add []); [constructor|unfold uint64; lia]|unfold uint64; lia])|].
  split; [vm_compute; reflexivity|]. intros w L. rewrite could_spec. assert (M : d_max dtop = 2 ^ 64 - 2) by (vm_compute; reflexivity). rewrite M.
  destruct (Z.leb_spec w (2 ^ 64 - 2)) as [G|G]; [|now rewrite andb_false_r].
  assert (I : w = 2 ^ 64 - 8 \/ w = 2 ^ 64 - 7 \/ w = 2 ^ 64 - 6 \/ w = 2 ^ 64 - 5 \/ w = 2 ^ 64 - 4 \/ w = 2 ^ 64 - 3 \/ w = 2 ^ 64 - 2) by lia.
  destruct I as [->|[->|[->|[->|[->|[->| ->]]]]]]; vm_compute; reflexivity.
Qed.

Definition dom_ex : dom := restrictTo potential (add (add (add observed 70000) 12) 8300).
Example C72_case : pot dom_ex /\ couldQualify dom_ex 12 = true /\ couldQualify dom_ex 13 = false /\
  nextCandidate dom_ex 13 = Some 108 /\ couldQualify dom_ex 108 = true /\ nextCandidate dom_ex 8205 = Some 8300 /\ nextCandidate dom_ex 70001 = Some umax /\ d_min dom_ex + 8192 < 2 ^ 64.
Proof.
  split; [eapply pot_restrict; [constructor|]; apply (obs_add [70000; 12] _ 8300); [apply (obs_add [70000] _ 12); [apply (obs_add [] _ 70000); [constructor|]|]|]; unfold uint64; lia|].
  repeat split; vm_compute; reflexivity.
Qed.
Print Assumptions C72_observed. Print Assumptions C72_potential. Print Assumptions C72_restrict. Print Assumptions C72_sync.
Print Assumptions C72_next. Print Assumptions C72_no_skip. Print Assumptions C72_next_top_refuted.
