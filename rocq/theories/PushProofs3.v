(** Proofs about plans with filters on their scans: the scans, and the filters above the joins. *)
From Coq Require Import ZifyBool.
From Verif Require Import OpSpec OpProofs OpProps2.
From Verif Require Import PlanModel PlanSpec PlanProofs PlanProofs2 PlanProofs3 PlanProofs4 PlanProofs5 PlanProofs6 FiltModel.
From Verif Require Import FiltSpec.
From Verif Require Import SelModel SelSpec SelProofs SelProps FiltProofs.
From Verif Require Import PlanSpec PlanProofs4 PlanProofs5 PushModel PushProofs PushProofs2.
Local Open Scope Z_scope.

Lemma applicable_incl vs f : ordinary f = true -> (applicable vs f = true <-> incl (fvars f) vs).
Proof.
  intros HO. unfold applicable. rewrite (ordinary_vars f HO), forallb_forall. split; intros H v Hv; apply mem_In; [now apply H|]. apply mem_In. apply mem_In. now apply H.
Qed.

Section Push.
Variables (w : world) (fuel : nat) (memory : Z) (open : nat -> option Z -> option Z -> option Z -> option pitr) (tl : nat -> option pitr) (nodes : list node) (projection : list nat) (U : list (Z * Z * Z)) (filters : list filt).
Hypothesis D : dict_ok w.
Hypothesis HU : NoDup U.
Hypothesis Hlin : linear nodes.
Hypothesis Hconst : constants_ok nodes.
Hypothesis Hrange : forall t k, In t U -> (k < 3)%nat -> 0 <= comp t k < 2 ^ 64.
Hypothesis Hmem : 2 ^ 65 <= memory.
Hypothesis Hfuel : (4 * S (length U) ^ length nodes + 1 < fuel)%nat.
Hypothesis Hord : forall f, In f filters -> ordinary f = true.
Hypothesis Hfv : forall f, In f filters -> incl (fvars f) projection.
Hypothesis HK : forall f i s, In f filters -> (i < length nodes)%nat -> incl (fvars f) (node_vars nodes i) -> solves U [node_of nodes i] s -> exists z, Supported w s f /\ Truth (row_of w s) f z.
Local Notation Planned := (Planned nodes projection).

Definition sel (i : nat) (s : nat -> Z) : bool := forallb (fun f => verdict_of w (node_vars nodes i) f s) (filter (applicable (node_vars nodes i)) filters).
Lemma sel_agree i s s' : agree (pattern_vars (node_of nodes i)) s s' -> sel i s = sel i s'.
Proof.
  intros A. unfold sel. induction (filter _ filters) as [|f fs IH]; [reflexivity|]. cbn [forallb]. rewrite IH. f_equal. apply verdict_agree. exact A.
Qed.
Lemma scan_relations q : is_scan q = true -> Planned q -> exists i, relations q = [i] /\ (i < length nodes)%nat.
Proof. intros H HP. inversion HP; subst; try discriminate; eexists; split; try reflexivity; assumption. Qed.
Lemma slot_node i k v : (k < 3)%nat -> In v (slot_vars nodes i k) -> In v (node_vars nodes i).
Proof. intros Hk H. unfold node_vars. rewrite !in_app_iff. destruct k as [|[|[|k]]]; auto. Qed.
Lemma node_slot i v k1 k2 k3 : (k1 < 3 /\ k2 < 3 /\ k3 < 3 /\ k1 <> k2 /\ k1 <> k3 /\ k2 <> k3)%nat -> In v (node_vars nodes i) ->
  In v (slot_vars nodes i k1) \/ In v (slot_vars nodes i k2) \/ In v (slot_vars nodes i k3).
Proof.
  intros H Hv. unfold node_vars in Hv. rewrite !in_app_iff in Hv.
  destruct k1 as [|[|[|k1]]], k2 as [|[|[|k2]]], k3 as [|[|[|k3]]]; try lia; tauto.
Qed.
Lemma scan_incl q i : is_scan q = true -> Planned q -> relations q = [i] -> incl (scan_vars nodes q) (node_vars nodes i).
Proof.
  intros H HP Hi v Hv. inversion HP as [u idx j Hj Hx|u idx j k1 k2 k3 v3 Hj Hx Hcol E3 Hn _ _|idx j k1 k2 k3 v1 v2 v3 Hj Hx Hcol _ E2 E3 Hn2 _ Hn3 _| | |]; subst; try discriminate;
    injection Hi as ->; cbn [scan_vars] in Hv; [destruct (columns idx) as [[k1 k2] k3] eqn:Hcol|rewrite Hcol in Hv|rewrite Hcol in Hv];
    destruct (columns_perm _ _ _ _ Hx Hcol) as (A & B & C & _); rewrite ?in_app_iff in Hv; [destruct Hv as [Hv|[Hv|Hv]]|destruct Hv as [Hv|Hv]|]; (eapply slot_node; [|exact Hv]; assumption).
Qed.
Lemma scan_all q i v : is_scan q = true -> Planned q -> relations q = [i] -> In v (node_vars nodes i) -> In v projection -> In v (scan_vars nodes q).
Proof.
  intros H HP Hi Hv Hp. inversion HP as [u idx j Hj Hx|u idx j k1 k2 k3 v3 Hj Hx Hcol E3 Hn _ _|idx j k1 k2 k3 v1 v2 v3 Hj Hx Hcol _ E2 E3 Hn2 _ Hn3 _| | |]; subst; try discriminate;
    injection Hi as ->; cbn [scan_vars]; [destruct (columns idx) as [[k1 k2] k3] eqn:Hcol|rewrite Hcol|rewrite Hcol];
    destruct (node_slot i v k1 k2 k3 (columns_perm _ _ _ _ Hx Hcol) Hv) as [Hs|[Hs|Hs]]; rewrite ?in_app_iff; auto; exfalso; unfold slot_vars in Hs.
  - rewrite E3 in Hs. destruct Hs as [<-|[]]. contradiction.
  - rewrite E2 in Hs. destruct Hs as [<-|[]]. contradiction.
  - rewrite E3 in Hs. destruct Hs as [<-|[]]. contradiction.
Qed.
Lemma scan_applied q i f : is_scan q = true -> Planned q -> relations q = [i] -> In f filters ->
  (applicable (ordering_only nodes q) f || applicable (scan_vars nodes q) f = true <-> applicable (node_vars nodes i) f = true).
Proof.
  intros H HP Hi Hf. rewrite orb_true_iff, !applicable_incl by auto. split.
  - intros [A|A] v Hv; specialize (A v Hv); [|eapply scan_incl; eauto]. unfold ordering_only in A. destruct (ordering nodes q) as [x|] eqn:E; [|destruct A]. destruct A as [<-|[]].
    pose proof (ordering_var nodes projection q HP x E) as Hx. apply pvars_In in Hx. destruct Hx as (j & Hj & Hx). rewrite Hi in Hj. destruct Hj as [<-|[]]. exact Hx.
  - intros A. right. intros v Hv. eapply scan_all; eauto. eapply Hfv; eauto.
Qed.
Lemma build_In q f : In f (buildFilters nodes filters q) <-> In f filters /\ applicable (ordering_only nodes q) f || applicable (scan_vars nodes q) f = true.
Proof.
  unfold buildFilters. rewrite in_app_iff, !filter_In. destruct (applicable (ordering_only nodes q) f), (applicable (scan_vars nodes q) f); cbn; intuition discriminate.
Qed.

Local Notation keep_at i := (fun (f : filt) (s : nat -> Z) => verdict_of w (node_vars nodes i) f s).
Lemma cleanup_sub proj vs b e : In e (cleanup proj vs b) -> In e b.
Proof. unfold cleanup. intros H. apply filter_In in H. apply H. Qed.
Lemma scan_layers q i : is_scan q = true -> Planned q -> relations q = [i] -> (i < length nodes)%nat ->
  (forall idx, In idx (indices q) -> serves U fuel open idx) -> (forall idx, In idx (aggregated q) -> serves_counts U fuel open idx) -> (forall idx, In idx (fully q) -> serves_terms U fuel tl idx) ->
  forall fs, (forall f, In f fs -> In f filters /\ incl (fvars f) (node_vars nodes i)) ->
  forall proj, wanted nodes projection proj -> exists o b W L, translateFilters w fuel memory open tl nodes proj fs q = Some (o, b) /\
    Layer fuel nodes U q (keep_at i) proj fs o b W L /\ incl (map snd b) W /\ (forall x, In x W -> In (x / 3)%nat (relations q)) /\
    forall v r, ordering nodes q = Some v -> In (v, r) b -> ascending r L.
Proof.
  intros Hs HP Hi Hlt HS HS' HS'' fs. induction fs as [|f fs IH]; intros HF proj HW.
  - destruct (planned_has w fuel memory open tl nodes projection U HU Hlin Hconst Hrange Hmem Hfuel q HP HS HS' HS'' proj HW) as (o & b & W & L & E & H).
    exists o, b, W, L. split; [exact E|]. split; [|split; [apply H|split; [apply H|apply H]]]. split.
    + apply H.
    + pose proof (PlanProofs5.has_length U nodes HU Hlin _ _ _ _ _ _ H) as HL. pose proof (size_bound fuel open tl nodes projection U Hrange Hfuel q HP). lia.
    + apply H.
    + intros S HSol. unfold kept. cbn [forallb]. rewrite PlanProofs5.filter_true by reflexivity. now apply H.
  - destruct (HF f (or_introl eq_refl)) as (Hf & Hv). pose proof (Hord f Hf) as HO. cbn [translateFilters].
    destruct (IH (fun g Hg => HF g (or_intror Hg)) (addAll (addAll (filter_vars f) []) proj)) as (o & b & W & L & E & HL & HI & HR & HA).
    { intros v H. apply addAll_In in H. destruct H as [H|H]; [|now apply HW]. apply addAll_In in H. destruct H as [H|[]]. rewrite (ordinary_vars f HO) in H. left. eapply Hfv; eauto. }
    rewrite E. destruct (solutions_exist U HU (pats nodes q) (pats_linear nodes Hlin (relations q))) as (S0 & HS0 & _).
    destruct (layer_filter w fuel nodes U q (keep_at i) D proj fs f o b W L HO) as (o' & L' & E' & H' & k & Ek); auto.
    { intros v Hv'. apply pvars_In. exists i. rewrite Hi. split; [now left|auto]. }
    { eauto. }
    { intros s Hsol. assert (Hsol' : solves U [node_of nodes i] s) by (unfold PlanProofs4.pats in Hsol; rewrite Hi in Hsol; exact Hsol).
      destruct (HK f i s Hf Hlt Hv Hsol') as (z & H1 & H2). split; [exact H1|]. cbn beta. now rewrite (verdict_ok w (node_vars nodes i) f D s z Hv H1 H2). }
    rewrite E'. exists o', (cleanup proj (addAll (filter_vars f) []) b), W, L'. split; [reflexivity|]. split; [exact H'|]. split; [|split; [exact HR|]].
    + intros x Hx. apply in_map_iff in Hx. destruct Hx as (e & <- & He). apply HI, in_map. eapply cleanup_sub; eauto.
    + intros v r Eo Hin. rewrite Ek. apply ascending_filter. eapply HA; eauto. eapply cleanup_sub; eauto.
Qed.
Lemma scan_has q : is_scan q = true -> Planned q ->
  (forall idx, In idx (indices q) -> serves U fuel open idx) -> (forall idx, In idx (aggregated q) -> serves_counts U fuel open idx) -> (forall idx, In idx (fully q) -> serves_terms U fuel tl idx) ->
  forall proj, wanted nodes projection proj -> exists o b W L, translatePushed w fuel memory open tl nodes filters proj q = Some (o, b) /\ PushProofs.Has U nodes sel proj q o b W L.
Proof.
  intros Hs HP HS HS' HS'' proj HW. destruct (scan_relations q Hs HP) as (i & Hi & Hlt).
  assert (HB : forall f, In f (buildFilters nodes filters q) <-> In f filters /\ applicable (node_vars nodes i) f = true).
  { intros f. rewrite build_In. split; intros [H1 H2]; (split; [exact H1|]); eapply scan_applied; eauto. }
  destruct (scan_layers q i Hs HP Hi Hlt HS HS' HS'' (rev (buildFilters nodes filters q))) with (proj := proj) as (o & b & W & L & E & HL & HI & HR & HA); [|exact HW|].
  { intros f Hf. apply in_rev in Hf. apply HB in Hf. destruct Hf as [H1 H2]. split; [exact H1|]. apply applicable_incl; auto. }
  exists o, b, W, L. split; [destruct q; try discriminate; exact E|]. split; auto.
  - apply HL.
  - apply HL.
  - intros S HSol. assert (EK : kept (keep_at i) (rev (buildFilters nodes filters q)) S = filter (passes sel (relations q)) S).
    { unfold kept. apply filter_ext. intros s. rewrite Hi. unfold passes. cbn [forallb]. rewrite andb_true_r. unfold sel. apply eq_true_iff_eq. rewrite !forallb_forall.
      split; intros A f Hf; apply A; [rewrite <- in_rev; apply HB; now apply filter_In|apply filter_In, HB; now apply in_rev]. }
    rewrite <- EK. now apply HL.
Qed.
Lemma applied_iff p : Planned p -> forall f, In f filters -> (applied nodes f p = true <-> exists i, In i (relations p) /\ applicable (node_vars nodes i) f = true).
Proof.
  intros HP f Hf. induction HP as [u idx i Hi Hidx|u idx i k1 k2 k3 v3 Hi Hidx Hcol Hv3 Hp Ho Hb|idx i k1 k2 k3 v1 v2 v3 Hi Hidx Hcol Hv1 Hv2 Hv3 Hp2 Ho2 Hp3 Ho3|on l r Hl IHl Hr IHr HO HC El Er|l r Hl IHl Hr IHr HO HC|l r Hl IHl Hr IHr HO HC].
  1, 2, 3: match goal with |- applied _ _ ?q = true <-> _ => change (applied nodes f q) with (applicable (ordering_only nodes q) f || applicable (scan_vars nodes q) f);
    rewrite (scan_applied q i f); [|reflexivity|econstructor; eauto|reflexivity|exact Hf] end; cbn [relations]; split; [intros H; exists i; split; [now left|exact H]|intros (j & [<-|[]] & H); exact H].
  all: cbn [applied relations]; rewrite orb_true_iff, IHl, IHr; split;
    [intros [(i & H1 & H2)|(i & H1 & H2)]; exists i; rewrite in_app_iff; auto|intros (i & H1 & H2); apply in_app_or in H1; destruct H1; [left|right]; eauto].
Qed.
Variable keep : filt -> (nat -> Z) -> bool.
Lemma above_layer p : Planned p -> complete nodes p ->
  (forall idx, In idx (indices p) -> serves U fuel open idx) -> (forall idx, In idx (aggregated p) -> serves_counts U fuel open idx) -> (forall idx, In idx (fully p) -> serves_terms U fuel tl idx) ->
  (forall f, In f filters -> incl (fvars f) (pvars nodes p)) ->
  (forall f s, In f filters -> solves U (pats nodes p) s -> Supported w s f /\ Truth (row_of w s) f (keep f s)) ->
  forall fs, incl fs filters -> forall proj, wanted nodes projection proj -> exists o b W L, translateAbove w fuel memory open tl nodes filters proj fs p = Some (o, b) /\
    Layer fuel nodes U p keep proj (fs ++ filter (fun f => applied nodes f p) filters) o b W L /\ incl (map snd b) W.
Proof.
  intros HP HC HS HS' HS'' Hvp HT fs. induction fs as [|f fs IH]; intros HF proj HW.
  - destruct (pushed_has w fuel memory open tl nodes projection U HU Hlin Hrange Hmem Hfuel filters sel sel_agree scan_has p HP HS HS' HS'' proj HW) as (o & b & W & L & E & H).
    exists o, b, W, L. split; [exact E|]. split; [|apply H]. split.
    + apply H.
    + pose proof (PushProofs.has_length U nodes HU Hlin sel sel_agree _ _ _ _ _ _ H) as HL. pose proof (size_bound fuel open tl nodes projection U Hrange Hfuel p HP). lia.
    + apply H.
    + intros S HSol. cbn [app]. assert (EK : kept keep (filter (fun f => applied nodes f p) filters) S = filter (passes sel (relations p)) S).
      { unfold kept. apply filter_ext_in. intros s Hs. pose proof (solutions_sound _ _ _ _ HSol Hs) as Hsol. unfold passes. apply eq_true_iff_eq. rewrite !forallb_forall.
        assert (Hv : forall f i, In f filters -> applicable (node_vars nodes i) f = true -> verdict_of w (node_vars nodes i) f s = keep f s).
        { intros f i Hf Ha. destruct (HT f s Hf Hsol) as [H1 H2]. apply verdict_ok; auto. apply applicable_incl; auto. }
        split.
        - intros A i Hi. unfold sel. apply forallb_forall. intros f Hf. apply filter_In in Hf. destruct Hf as [Hf Ha]. rewrite (Hv f i Hf Ha). apply A. apply filter_In. split; [exact Hf|].
          apply applied_iff; eauto.
        - intros A f Hf. apply filter_In in Hf. destruct Hf as [Hf Ha]. apply applied_iff in Ha; auto. destruct Ha as (i & Hi & Ha). rewrite <- (Hv f i Hf Ha).
          specialize (A i Hi). unfold sel in A. rewrite forallb_forall in A. apply A. now apply filter_In. }
      rewrite EK. now apply H.
  - assert (Hf : In f filters) by (apply HF; now left). pose proof (Hord f Hf) as HO. cbn [translateAbove].
    destruct (IH (fun g Hg => HF g (or_intror Hg)) (addAll (addAll (filter_vars f) []) proj)) as (o & b & W & L & E & HL & HI).
    { intros v H. apply addAll_In in H. destruct H as [H|H]; [|now apply HW]. apply addAll_In in H. destruct H as [H|[]]. rewrite (ordinary_vars f HO) in H. left. eapply Hfv; eauto. }
    rewrite E. destruct (solutions_exist U HU (pats nodes p) (pats_linear nodes Hlin (relations p))) as (S0 & HS0 & _).
    destruct (layer_step w fuel nodes U p keep D proj (fs ++ filter (fun f => applied nodes f p) filters) f o b W L HO (Hvp f Hf) (ex_intro _ S0 HS0) (fun s => HT f s Hf) HL) as (o' & L' & E' & H').
    rewrite E'. cbn [app]. exists o', (cleanup proj (addAll (filter_vars f) []) b), W, L'. split; [reflexivity|]. split; [exact H'|].
    intros x Hx. apply in_map_iff in Hx. destruct Hx as (e & <- & He). apply HI, in_map. eapply cleanup_sub; eauto.
Qed.
End Push.
