(** Lemmas on the cache of ranges. *)
From Verif Require Export CidxSpec.
Local Open Scope Z_scope.

Lemma blt_total_eq a b : blt a b = false -> blt b a = false -> b_sk a = b_sk b /\ b_ek a = b_ek b.
Proof. unfold blt. rewrite (Z.eqb_sym (b_sk b)). destruct (Z.eqb_spec (b_sk a) (b_sk b)), (Z.ltb_spec (b_ek b) (b_ek a)), (Z.ltb_spec (b_ek a) (b_ek b)), (Z.ltb_spec (b_sk b) (b_sk a)), (Z.ltb_spec (b_sk a) (b_sk b)); intros; try discriminate; lia. Qed.

(** ** The map *)
Lemma get_set c k e k' : getIndex (setIndex c k e) k' = if k =? k' then Some e else getIndex c k'.
Proof.
  induction c as [|[x y] c IH]; cbn.
  - destruct (k =? k'); reflexivity.
  - destruct (Z.eqb_spec x k) as [->|N]; cbn.
    + destruct (k =? k'); reflexivity.
    + rewrite IH. destruct (Z.eqb_spec x k') as [->|N']; auto. destruct (Z.eqb_spec k k'); congruence.
Qed.

Lemma copy_ok ps n i : (i + n <= length ps)%nat -> copyPairs n ps i = Some (firstn n (skipn i ps)).
Proof.
  revert i. induction n as [|n IH]; intros i L; [reflexivity|]. cbn [copyPairs].
  destruct (nth_error ps i) as [x|] eqn:E; [|apply nth_error_None in E; lia]. rewrite (IH (S i)) by lia.
  assert (E2 : skipn i ps = x :: skipn (S i) ps).
  { clear - E. revert i E. induction ps as [|y ps IH]; intros [|i] E; cbn in *; try discriminate; [congruence|now apply IH]. }
  rewrite E2. reflexivity.
Qed.
Lemma content_app ps q b : inside ps b -> content (ps ++ q) b = content ps b.
Proof.
  intros [A B]. unfold content. rewrite skipn_app, firstn_app, skipn_length.
  replace (b_ea b - b_sa b - (length ps - b_sa b))%nat with 0%nat by lia. cbn. now rewrite app_nil_r.
Qed.
Lemma inside_app ps q b : inside ps b -> inside (ps ++ q) b.
Proof. intros [A B]. split; auto. rewrite app_length. lia. Qed.
Lemma content_length ps b : inside ps b -> length (content ps b) = (b_ea b - b_sa b)%nat.
Proof. intros [A B]. unfold content. rewrite firstn_length, skipn_length. lia. Qed.
Lemma says_app ps q b : inside ps b -> says (ps ++ q) b = says ps b.
Proof. intros H. unfold says. now rewrite content_app. Qed.

Lemma add_ok new ps : Forall (inside ps) new -> forall e, Forall (inside (snd e)) (fst e) ->
  exists e', addBlocks new ps e = Some e' /\ Forall (inside (snd e')) (fst e') /\
    map (says (snd e')) (fst e') = map (says (snd e)) (fst e) ++ map (says ps) new /\ exists q, snd e' = snd e ++ q.
Proof.
  induction 1 as [|b t Hb Ht IH]; intros e He; cbn [addBlocks].
  - exists e. cbn. rewrite app_nil_r. split; [reflexivity|]. split; [exact He|]. split; [reflexivity|]. exists []. now rewrite app_nil_r.
  - destruct Hb as [B1 B2]. rewrite copy_ok by lia. fold (content ps b).
    set (b' := mkB (b_sk b) (b_ek b) (length (snd e)) (length (snd e ++ content ps b))).
    assert (In' : inside (snd e ++ content ps b) b') by (unfold inside, b'; cbn; rewrite app_length; lia).
    destruct (IH (fst e ++ [b'], snd e ++ content ps b)) as (e' & E & F & M & q & Q).
    { cbn. apply Forall_app. split; [eapply Forall_impl; [|exact He]; intros; now apply inside_app|]. now constructor. }
    exists e'. split; [exact E|]. split; [exact F|]. split.
    + rewrite M. cbn [fst snd]. rewrite map_app. cbn [map]. rewrite <- app_assoc. cbn [app]. f_equal; [|f_equal].
      * apply map_ext_in. intros x Hx. apply says_app. rewrite Forall_forall in He. auto.
      * unfold says at 1, b'. cbn [b_sk b_ek]. unfold says. f_equal. unfold content at 1. cbn [b_sa b_ea]. rewrite app_length, skipn_app, skipn_all, Nat.sub_diag. cbn.
        replace (length (snd e) + length (content ps b) - length (snd e))%nat with (length (content ps b)) by lia. now rewrite firstn_all.
    + exists (content ps b ++ q). rewrite Q. cbn [snd]. now rewrite app_assoc.
Qed.

Lemma sort_ordered srt bs ps : sorts_blocks srt -> Forall (fun b => b_sk b <= b_ek b) bs -> ForallOrdPairs apart (map (says ps) bs) -> ordered (srt bs).
Proof.
  intros HS HF HA. destruct (HS bs) as [P Q].
  assert (HF' : Forall (fun b => b_sk b <= b_ek b) (srt bs)) by (eapply Permutation_Forall; [apply Permutation_sym|]; eauto).
  assert (HA' : ForallOrdPairs (fun a b => b_ek a < b_sk b \/ b_ek b < b_sk a) (srt bs)).
  { assert (G : forall l, ForallOrdPairs apart (map (says ps) l) -> ForallOrdPairs (fun a b => b_ek a < b_sk b \/ b_ek b < b_sk a) l).
    { induction l as [|x l IH]; intros H; [constructor|]. inversion H as [|? ? H1 H2]; subst. constructor; [|auto]. rewrite Forall_forall in *. intros y Hy. apply (H1 (says ps y)). now apply in_map. }
    apply G in HA. clear G. revert HA. generalize (srt bs) P. clear. intros l P. apply Permutation_sym in P. induction P; intros H.
    - constructor.
    - inversion H as [|? ? H1 H2]; subst. constructor; auto. eapply Permutation_Forall; eauto.
    - inversion H as [|? ? H1 H2]; subst. inversion H2 as [|? ? H3 H4]; subst. inversion H1 as [|? ? H5 H6]; subst. constructor; [constructor; [tauto|auto]|constructor; auto].
    - auto. }
  split; [|exact HF']. revert Q HF' HA'. generalize (srt bs). clear. induction 1 as [|a l Q IH H]; intros F A; [constructor|].
  inversion F; subst. inversion A; subst. constructor; [auto|]. rewrite Forall_forall in *. intros y Hy.
  pose proof (H y Hy) as G. match goal with X : forall x, In x l -> _ \/ _ |- _ => destruct (X y Hy) as [|L]; [assumption|] end.
  match goal with X : forall x, In x l -> b_sk x <= _ |- _ => pose proof (X y Hy) end.
  unfold blt in G. destruct (Z.eqb_spec (b_sk y) (b_sk a)); [lia|]. apply Z.ltb_ge in G. lia.
Qed.

(** ** Searching *)
Lemma search_spec bs v : ordered bs -> 0 <= v -> searchBlock bs v <> None ->
  exists r, searchBlock bs v = Some r /\
    match r with Some b => In b bs /\ b_sk b <= v <= b_ek b | None => forall b, In b bs -> ~ (b_sk b <= v <= b_ek b) end.
Proof.
  intros [O F] V E. unfold searchBlock in *.
  (* the blocks before the position start at or before v, the one at it after v, or at v with end 0 *)
  assert (G : exists l1 x l2, bs = l1 ++ x :: l2 /\ lower_bound bs (mkB v 0 0 0) = length l1 /\ Forall (fun b => b_sk b <= v) l1 /\ (v < b_sk x \/ b_sk x = v /\ b_ek x <= 0)).
  { assert (E' : nth_error bs (lower_bound bs (mkB v 0 0 0)) <> None) by (intros X; rewrite X in E; auto).
    clear O F E. revert E'. induction bs as [|a t IH]; cbn [lower_bound nth_error]; [easy|]. destruct (blt a (mkB v 0 0 0)) eqn:B; unfold blt in B; cbn in B.
    - assert (b_sk a <= v) by (destruct (Z.eqb_spec (b_sk a) v); [lia|apply Z.ltb_lt in B; lia]).
      intros X. destruct (IH X) as (l1 & x & l2 & -> & L & P & Q). exists (a :: l1), x, l2. cbn. repeat split; auto.
    - intros _. exists [], a, t. repeat split; auto. destruct (Z.eqb_spec (b_sk a) v) as [e|n]; [right; split; [exact e|now apply Z.ltb_ge in B]|left; apply Z.ltb_ge in B; lia]. }
  destruct G as (l1 & x & l2 & -> & -> & P & Q). clear E. rewrite nth_error_app2, Nat.sub_diag by lia. cbn [nth_error].
  apply Forall_app in F as [F1 F2]. inversion F2 as [|? ? Fx F3]; subst.
  assert (O2 : Forall (fun b => b_ek x < b_sk b) l2).
  { clear - O. induction l1 as [|a l1 IH]; cbn in O; inversion O; subst; auto. }
  destruct (Z.eqb_spec v (b_sk x)) as [Ex|Nx].
  - rewrite orb_true_r. cbn [negb]. exists (Some x). destruct (Z.leb_spec v (b_ek x)); [|lia]. split; [reflexivity|]. split; [apply in_or_app; right; now left|lia].
  - assert (Lx : v < b_sk x) by lia. cbn [negb]. rewrite orb_false_r.
    assert (NR : forall b, In b (x :: l2) -> v < b_sk b) by (intros b [<-|I]; [exact Lx|]; rewrite Forall_forall in O2; specialize (O2 b I); lia).
    destruct l1 as [|a l1 _] using rev_ind; cbn [length Nat.eqb negb].
    + exists None. split; [reflexivity|]. intros b I. specialize (NR b I). lia.
    + rewrite app_length, Nat.add_comm. cbn [Nat.add Nat.eqb negb length]. rewrite Nat.sub_succ, Nat.sub_0_r, <- app_assoc. cbn [app].
      rewrite nth_error_app2, Nat.sub_diag by lia. cbn [nth_error].
      apply Forall_app in P as [P1 P2]. inversion P2 as [|? ? Pa _]; subst.
      destruct (Z.leb_spec v (b_ek a)) as [La|La].
      * exists (Some a). split; [reflexivity|]. split; [apply in_or_app; right; now left|lia].
      * exists None. split; [reflexivity|]. intros b I. apply in_app_or in I as [I|[<-|I]]; [|lia|specialize (NR b I); lia].
        assert (b_ek b < b_sk a); [|lia]. rewrite <- app_assoc in O. cbn [app] in O. clear - O I. induction l1 as [|y l1 IH]; [destruct I|]. cbn in O. inversion O as [|? ? O1 O2]; subst. destruct I as [<-|I]; [|auto].
        rewrite Forall_forall in O2. apply O2. apply in_or_app. right. now left.
Qed.
Lemma search_some bs v : Exists (fun b => v < b_sk b) bs -> searchBlock bs v <> None.
Proof.
  intros E. unfold searchBlock.
  assert (G : (lower_bound bs (mkB v 0 0 0) < length bs)%nat).
  { induction E as [a t H|a t H IH]; cbn [lower_bound length].
    - unfold blt. cbn. destruct (Z.eqb_spec (b_sk a) v); [lia|]. destruct (Z.ltb_spec (b_sk a) v); lia.
    - destruct (blt a _); lia. }
  destruct (nth_error bs _) as [x|] eqn:Ex; [|apply nth_error_None in Ex; lia].
  destruct (negb (Nat.eqb (lower_bound bs (mkB v 0 0 0)) 0) || (v =? b_sk x)); [|discriminate].
  destruct (v =? b_sk x); cbn [negb]; [discriminate|].
  destruct (nth_error bs (_ - 1)) as [y|] eqn:Ey; [discriminate|apply nth_error_None in Ey; lia].
Qed.

(** ** Storing *)
Definition holds (c : cache) (S : Z -> list (Z * Z * pairs)) (K : Z -> bool) : Prop :=
  forall key, match getIndex c key with
  | None => K key = false /\ S key = []
  | Some e => K key = true /\ Forall (inside (snd e)) (fst e) /\ Permutation (map (says (snd e)) (fst e)) (S key)
  end.
Lemma store_holds srt c S K key bs ps : sorts_blocks srt -> holds c S K -> Forall (inside ps) bs ->
  exists c', storeIdx srt c key bs ps = Some c' /\ holds c' (fun k => S k ++ (if key =? k then map (says ps) bs else [])) (fun k => K k || (key =? k)).
Proof.
  intros HS H HI. unfold storeIdx. pose proof (H key) as Hk. destruct (getIndex c key) as [e|] eqn:G.
  - destruct Hk as (K1 & I1 & P1). destruct (add_ok bs ps HI e I1) as (e' & -> & I2 & M & _). eexists. split; [reflexivity|]. intros k. rewrite get_set. destruct (Z.eqb_spec key k) as [<-|N].
    + cbn [fst snd]. split; [apply orb_true_r|]. destruct (HS (fst e')) as [P _]. split; [eapply Permutation_Forall; [apply Permutation_sym; exact P|exact I2]|].
      rewrite (Permutation_map _ P), M. now apply Permutation_app_tail.
    + specialize (H k). rewrite orb_false_r, app_nil_r. exact H.
  - destruct Hk as (K1 & S1). eexists. split; [reflexivity|]. intros k. rewrite get_set. destruct (Z.eqb_spec key k) as [<-|N].
    + cbn [fst snd]. rewrite S1. split; [apply orb_true_r|]. split; [exact HI|reflexivity].
    + specialize (H k). rewrite orb_false_r, app_nil_r. exact H.
Qed.
Lemma holds_ext c S K S' K' : (forall k, S k = S' k) -> (forall k, K k = K' k) -> holds c S K -> holds c S' K'.
Proof. intros A B H k. specialize (H k). now rewrite <- A, <- B. Qed.
Lemma store_all_holds srt h : sorts_blocks srt -> Forall (fun x => let '(_, bs, ps) := x in Forall (inside ps) bs) h ->
  forall c S K, holds c S K -> exists c', store_all srt c h = Some c' /\ holds c' (fun k => S k ++ said k h) (fun k => K k || stored_key k h).
Proof.
  intros HS. induction 1 as [|[[k bs] ps] h Hx Hh IH]; intros c S K H; cbn [store_all].
  - exists c. split; [reflexivity|]. eapply holds_ext; [| |exact H]; intros; cbn; [now rewrite app_nil_r|now rewrite orb_false_r].
  - destruct (store_holds srt c S K k bs ps HS H Hx) as (c1 & -> & H1). destruct (IH c1 _ _ H1) as (c2 & E & H2). exists c2. split; [exact E|].
    eapply holds_ext; [| |exact H2]; intros; cbn; [now rewrite <- app_assoc|now rewrite orb_assoc].
Qed.
