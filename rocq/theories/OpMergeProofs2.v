(** Proofs about the merge join: the states. *)
From Verif Require Export OpMergeProofs.
Local Open Scope Z_scope.

Section Mj.
Variables (Il Ir : oper -> Prop) (Vl Wl Vr Wr : list nat).
Variables (fuel : nat) (lv rv : nat) (ltail rtail : list nat) (lopt ropt : bool).
Local Notation X := (lv :: ltail).
Local Notation Y := (rv :: rtail).
Hypothesis HVl : incl Vl Wl.
Hypothesis HVr : incl Vr Wr.
Hypothesis Hdis : disjoint Wl Wr.
Hypothesis HX : incl X Vl.
Hypothesis HY : incl Y Vr.
Hypothesis HnX : NoDup X.
Hypothesis HnY : NoDup Y.
Hypothesis Hopt : lopt && ropt = false.
Local Notation V := (X ++ Y).
Local Notation W := (Wl ++ Wr).
Let wl : incl Wl W. Proof. intros x Hx; apply in_or_app; auto. Qed.
Let wr : incl Wr W. Proof. intros x Hx; apply in_or_app; auto. Qed.
Let XW : incl X Wl. Proof. eapply incl_tran; eassumption. Qed.
Let YW : incl Y Wr. Proof. eapply incl_tran; eassumption. Qed.
Local Notation kl := (kl lv).
Local Notation kr := (kr rv).
Local Notation merged := (merged lv rv ltail lopt ropt).
Local Notation pr := (pr lv ltail).
Local Notation nul := (nul lv ltail).
Local Notation nur := (nur lv ltail).
Local Notation nuls := (nuls lv ltail lopt).
Local Notation nurs := (nurs lv ltail ropt).
Local Notation end_left := (end_left lv rv ltail lopt).
Local Notation end_right := (end_right lv rv ltail ropt).
Local Notation nullrow := (fun _ : nat => null32).
Implicit Types a b : (regs * Z)%type.
Implicit Types A B : list (regs * Z).

Lemma frame_r g g' : outside Wl g g' -> agree Wr g' g.
Proof. intros H x Hx. symmetry. apply H. intros C. exact (Hdis x C Hx). Qed.
Lemma frame_l g g' : outside Wr g g' -> agree Wl g' g.
Proof. intros H x Hx. symmetry. apply H. intros C. exact (Hdis x Hx C). Qed.
Lemma outX g g' : outside X g g' -> outside Wl g g'.
Proof. apply outside_incl, XW. Qed.
Lemma outY g g' : outside Y g g' -> outside Wr g g'.
Proof. apply outside_incl, YW. Qed.
Lemma outl g g' : outside Wl g g' -> outside W g g'.
Proof. apply outside_incl, wl. Qed.
Lemma outr g g' : outside Wr g g' -> outside W g g'.
Proof. apply outside_incl, wr. Qed.
Lemma emit g u v : agree X g u -> agree Y g v -> agree V g (beside X u v).
Proof. intros H1 H2. apply agree_beside; auto. intros x Hy Hx. exact (Hdis x (XW x Hx) (YW x Hy)). Qed.

(** Sorted sides; if one side is optional, the values are below the mark of the end, and those
    of the optional side are different. *)
Definition SL A : Prop := StronglySorted (fun a b => if lopt then kl a < kl b else kl a <= kl b) A /\
  (lopt || ropt = true -> Forall (fun a => kl a < null32) A).
Definition SR B : Prop := StronglySorted (fun a b => if ropt then kr a < kr b else kr a <= kr b) B /\
  (lopt || ropt = true -> Forall (fun a => kr a < null32) B).
Lemma SL_cons a A : SL (a :: A) -> SL A /\ Forall (fun x => kl a <= kl x) A /\ (lopt = true -> Forall (fun x => kl a < kl x) A) /\ (lopt || ropt = true -> kl a < null32).
Proof.
  intros [H1 H2]. inversion H1 as [|? ? H3 H4]; subst. split; [split; [exact H3|]|split; [|split]].
  - intros E. specialize (H2 E). inversion H2; assumption.
  - eapply Forall_impl; [|exact H4]. intros x Hx. destruct lopt; cbn beta in Hx; lia.
  - intros E. rewrite E in H4. exact H4.
  - intros E. specialize (H2 E). inversion H2; assumption.
Qed.
Lemma SR_cons a A : SR (a :: A) -> SR A /\ Forall (fun x => kr a <= kr x) A /\ (ropt = true -> Forall (fun x => kr a < kr x) A) /\ (lopt || ropt = true -> kr a < null32).
Proof.
  intros [H1 H2]. inversion H1 as [|? ? H3 H4]; subst. split; [split; [exact H3|]|split; [|split]].
  - intros E. specialize (H2 E). inversion H2; assumption.
  - eapply Forall_impl; [|exact H4]. intros x Hx. destruct ropt; cbn beta in Hx; lia.
  - intros E. rewrite E in H4. exact H4.
  - intros E. specialize (H2 E). inversion H2; assumption.
Qed.

Definition FutL s g A := Fut Il Vl Wl (mj_left s) g A.
Definition FutR s g B := Fut Ir Vr Wr (mj_right s) g B.
Definition CurL s g A := Cur Il Vl Wl X (mj_left s) (mj_lc s) g A.
Definition CurR s g B := Cur Ir Vr Wr Y (mj_right s) (mj_rc s) g B.
Definition HidL s g A := Hid Il Vl Wl X (mj_left s) (mj_ls s) g A.
Definition HidR s g B := Hid Ir Vr Wr Y (mj_right s) (mj_rs s) g B.
Definition CL s g A := CurL s g A \/ (lopt = true /\ A = [] /\ Il (mj_left s) /\ agree X g nullrow).
Definition CR s g B := CurR s g B \/ (ropt = true /\ B = [] /\ Ir (mj_right s) /\ agree Y g nullrow).
(** The row is in the registers. *)
Definition ShowL (s : mj_st) g a := agree X g (fst a) /\ mj_lc s = snd a /\ 0 < snd a.
Definition ShowR (s : mj_st) g b := agree Y g (fst b) /\ mj_rc s = snd b /\ 0 < snd b.
Definition vals b : list Z := snd b :: map (fst b) Y.

Definition equal_left (hd : bool) n (s : mj_st) g out := lopt = false /\ exists A b B,
  (if hd then HidL s g A /\ g lv = kr b else FutL s g A /\ mj_lkey s = kr b) /\
  ShowR s g b /\ HidR s g B /\ SL A /\ SR B /\ Forall (fun a => kr b <= kl a) A /\ Forall (fun x => kr b < kr x) B /\
  out = merged A (b :: B) /\ (2 * (length A + length B) + 1 <= n)%nat.
Definition equal_right (hd : bool) n (s : mj_st) g out := ropt = false /\ exists a A B,
  (if hd then HidR s g B /\ g rv = kl a else FutR s g B /\ mj_rkey s = kl a) /\
  ShowL s g a /\ HidL s g A /\ SL A /\ SR B /\ Forall (fun x => kl a < kl x) A /\ Forall (fun b => kl a <= kr b) B /\
  out = map (pr a) (filter (fun b => kl a =? kr b) B) ++ merged A (filter (fun b => kl a <? kr b) B) /\
  (2 * (length A + length B) + 1 <= n)%nat.
Definition spooled (more : bool) n (s : mj_st) g out := lopt = false /\ ropt = false /\ exists a A Bs B2 T,
  ShowL s g a /\
  (if mj_copy s then HidL s g A else FutL s g A /\ mj_lkey s = kl a) /\
  mj_buf s = map vals Bs /\ mj_iter s = map vals B2 /\
  Forall (fun b => kr b = kl a /\ 0 < snd b) Bs /\ Forall (fun b => kr b = kl a /\ 0 < snd b) B2 /\ Bs <> [] /\
  (if more then HidR s g T else T = [] /\ Ir (mj_right s)) /\ SR T /\ Forall (fun b => kl a < kr b) T /\
  SL A /\ Forall (fun x => kl a <= kl x) A /\
  out = map (pr a) B2 ++ merged A (Bs ++ T) /\ (2 * (length A + length T) + 1 <= n)%nat.
Definition Inv (n : nat) (s : mj_st) (g : regs) (out : list (regs * Z)) : Prop :=
  match mj_scan s with
  | Empty => out = [] /\ Il (mj_left s) /\ Ir (mj_right s)
  | ScanHasBoth => exists A B, CurL s g A /\ CurR s g B /\ SL A /\ SR B /\ out = merged A B /\ (2 * (length A + length B) <= n)%nat
  | ScanStepLeft => exists A B, FutL s g A /\ CR s g B /\ SL A /\ SR B /\ out = merged A B /\ (2 * (length A + length B) <= n)%nat
  | ScanStepRight => exists A B, CL s g A /\ FutR s g B /\ SL A /\ SR B /\ out = merged A B /\ (2 * (length A + length B) <= n)%nat
  | ScanHasBothSwapped => exists A B, HidL s g A /\ HidR s g B /\ SL A /\ SR B /\ out = merged A B /\ (2 * (length A + length B) + 1 <= n)%nat
  | ScanStepLeftCopyRight => exists A B, FutL s g A /\ HidR s g B /\ SL A /\ SR B /\ out = merged A B /\ (2 * (length A + length B) + 1 <= n)%nat
  | ScanStepRightCopyLeft => exists A B, HidL s g A /\ FutR s g B /\ SL A /\ SR B /\ out = merged A B /\ (2 * (length A + length B) + 1 <= n)%nat
  | LoopEmptyLeft => Il (mj_left s) /\ exists B, FutR s g B /\ SR B /\ (2 * length B + 1 <= n)%nat /\
      ((exists a, ShowL s g a /\ (lopt || ropt = true -> kl a < null32) /\ Forall (fun b => kl a <= kr b) B /\ out = end_left a B) \/
       (lopt = true /\ agree X g nullrow /\ out = nuls B))
  | LoopEmptyRight => Ir (mj_right s) /\ exists A, FutL s g A /\ SL A /\ (2 * length A + 1 <= n)%nat /\
      ((exists b, ShowR s g b /\ (lopt || ropt = true -> kr b < null32) /\ Forall (fun a => kr b <= kl a) A /\ out = end_right b A) \/
       (ropt = true /\ agree Y g nullrow /\ out = nurs A))
  | LoopEmptyRightHasData => Ir (mj_right s) /\ exists A b, HidL s g A /\ SL A /\ (2 * length A + 1 <= n)%nat /\
      ShowR s g b /\ (lopt || ropt = true -> kr b < null32) /\ Forall (fun a => kr b <= kl a) A /\ out = end_right b A
  | LoopEqualLeftHasData => equal_left true n s g out
  | LoopEqualLeft => equal_left false n s g out
  | LoopEqualRightHasData => equal_right true n s g out
  | LoopEqualRight => equal_right false n s g out
  | LoopSpooledRightEmpty => spooled false n s g out
  | LoopSpooledRightHasData => spooled true n s g out
  | _ => False
  end.

Definition Good (n : nat) (r : Z * regs * mj_st) (g : regs) (out : list (regs * Z)) : Prop :=
  let '(c, g', s') := r in outside W g g' /\ Il (mj_left s') /\ Ir (mj_right s') /\
  match out with
  | [] => c = 0
  | a :: out' => c = snd a /\ 0 < c /\ agree V g' (fst a) /\ exists n', (n' <= n)%nat /\ Inv n' s' g' out'
  end.
Definition GoodR (n : nat) (res : option mj_res) (g : regs) (out : list (regs * Z)) : Prop :=
  match res with
  | None => False
  | Some (inr r) => Good n r g out
  | Some (inl (g1, s1)) => outside W g g1 /\ exists n', (n' < n)%nat /\ Inv n' s1 g1 out
  end.
Lemma GoodR_from n m res g g0 out : outside W g0 g -> (n <= m)%nat -> GoodR n res g out -> GoodR m res g0 out.
Proof.
  intros H Hm. destruct res as [[[g1 s1]|[[c g1] s1]]|]; [| |contradiction]; cbn.
  - intros (O & n' & Hn & Hi). split; [eapply outside_trans; eassumption|]. exists n'. split; [lia|exact Hi].
  - intros (O & H1 & H2 & H3). split; [eapply outside_trans; eassumption|]. split; [exact H1|]. split; [exact H2|].
    destruct out as [|a out]; [exact H3|]. destruct H3 as (H3 & H4 & H5 & n' & Hn & Hi). repeat (split; [assumption|]). exists n'. split; [lia|exact Hi].
Qed.
Lemma show_key_l s g a : ShowL s g a -> g lv = kl a.
Proof. intros (H & _). apply H. left. reflexivity. Qed.
Lemma show_key_r s g a : ShowR s g a -> g rv = kr a.
Proof. intros (H & _). apply H. left. reflexivity. Qed.
Lemma CurL_cons s g a A : CurL s g (a :: A) <-> FutL s g A /\ ShowL s g a.
Proof. unfold CurL, FutL, ShowL, Cur. tauto. Qed.
Lemma CurR_cons s g b B : CurR s g (b :: B) <-> FutR s g B /\ ShowR s g b.
Proof. unfold CurR, FutR, ShowR, Cur. tauto. Qed.

(** Changes on one side leave the other as it is. *)
Lemma FutL_r s s' g g' A : outside Wr g g' -> mj_left s' = mj_left s -> FutL s g A -> FutL s' g' A.
Proof. intros O E. unfold FutL. rewrite E. apply Fut_agree, frame_l, O. Qed.
Lemma FutR_l s s' g g' B : outside Wl g g' -> mj_right s' = mj_right s -> FutR s g B -> FutR s' g' B.
Proof. intros O E. unfold FutR. rewrite E. apply Fut_agree, frame_r, O. Qed.
Lemma HidL_r s s' g g' A : outside Wr g g' -> mj_left s' = mj_left s -> mj_ls s' = mj_ls s -> HidL s g A -> HidL s' g' A.
Proof. intros O E E'. unfold HidL. rewrite E, E'. apply Hid_agree. intros x Hx _. exact (frame_l _ _ O x Hx). Qed.
Lemma HidR_l s s' g g' B : outside Wl g g' -> mj_right s' = mj_right s -> mj_rs s' = mj_rs s -> HidR s g B -> HidR s' g' B.
Proof. intros O E E'. unfold HidR. rewrite E, E'. apply Hid_agree. intros x Hx _. exact (frame_r _ _ O x Hx). Qed.
Lemma HidR_y s s' g g' B : outside Y g g' -> mj_right s' = mj_right s -> mj_rs s' = mj_rs s -> HidR s g B -> HidR s' g' B.
Proof. intros O E E'. unfold HidR. rewrite E, E'. apply Hid_agree. intros x _ Hx. symmetry. exact (O x Hx). Qed.
Lemma CurL_r s s' g g' A : outside Wr g g' -> mj_left s' = mj_left s -> mj_lc s' = mj_lc s -> CurL s g A -> CurL s' g' A.
Proof. intros O E E'. unfold CurL. rewrite E, E'. apply Cur_agree; auto. apply frame_l, O. Qed.
Lemma CurR_l s s' g g' B : outside Wl g g' -> mj_right s' = mj_right s -> mj_rc s' = mj_rc s -> CurR s g B -> CurR s' g' B.
Proof. intros O E E'. unfold CurR. rewrite E, E'. apply Cur_agree; auto. apply frame_r, O. Qed.
Lemma ShowL_r s s' g g' a : outside Wr g g' -> mj_lc s' = mj_lc s -> ShowL s g a -> ShowL s' g' a.
Proof. intros O E (H1 & H2 & H3). split; [|split; [congruence|exact H3]]. eapply agree_trans; [|exact H1]. eapply agree_incl; [exact XW|]. apply frame_l, O. Qed.
Lemma ShowR_l s s' g g' a : outside Wl g g' -> mj_rc s' = mj_rc s -> ShowR s g a -> ShowR s' g' a.
Proof. intros O E (H1 & H2 & H3). split; [|split; [congruence|exact H3]]. eapply agree_trans; [|exact H1]. eapply agree_incl; [exact YW|]. apply frame_r, O. Qed.
Lemma CR_l s s' g g' B : outside Wl g g' -> mj_right s' = mj_right s -> mj_rc s' = mj_rc s -> CR s g B -> CR s' g' B.
Proof.
  intros O E E' [H|(H1 & H2 & H3 & H4)]; [left; eapply CurR_l; eassumption|]. right. rewrite E. repeat (split; [assumption|]).
  eapply agree_trans; [|exact H4]. eapply agree_incl; [exact YW|]. apply frame_r, O.
Qed.
Lemma CL_r s s' g g' A : outside Wr g g' -> mj_left s' = mj_left s -> mj_lc s' = mj_lc s -> CL s g A -> CL s' g' A.
Proof.
  intros O E E' [H|(H1 & H2 & H3 & H4)]; [left; eapply CurL_r; eassumption|]. right. rewrite E. repeat (split; [assumption|]).
  eapply agree_trans; [|exact H4]. eapply agree_incl; [exact XW|]. apply frame_l, O.
Qed.
Lemma swapL s g A : HidL s g A -> exists g1 s1, mj_swap_left lv ltail s g = (g1, s1) /\ CurL s1 g1 A /\ outside Wl g g1 /\
  s1 = mj_set_lc (hd 0 (mj_ls s)) (mj_set_ls (mj_lc s :: map g X) s).
Proof.
  intros H. eexists _, _. split; [reflexivity|]. split; [|split; [apply outX, outside_set_regs|reflexivity]].
  unfold CurL. cbn [mj_left mj_lc mj_set_lc mj_set_ls]. apply Hid_swap; auto.
Qed.
Lemma swapR s g B : HidR s g B -> exists g1 s1, mj_swap_right rv rtail s g = (g1, s1) /\ CurR s1 g1 B /\ outside Wr g g1 /\
  s1 = mj_set_rc (hd 0 (mj_rs s)) (mj_set_rs (mj_rc s :: map g Y) s).
Proof.
  intros H. eexists _, _. split; [reflexivity|]. split; [|split; [apply outY, outside_set_regs|reflexivity]].
  unfold CurR. cbn [mj_right mj_rc mj_set_rc mj_set_rs]. apply Hid_swap; auto.
Qed.
Lemma nextL s g A : FutL s g A -> exists c g1 l1, mj_next_left s g = Some (c, g1, mj_set_lc c (mj_set_left l1 s)) /\ outside Wl g g1 /\ Il l1 /\
  match A with [] => c = 0 | _ => (c =? 0) = false /\ CurL (mj_set_lc c (mj_set_left l1 s)) g1 A end.
Proof.
  intros H. destruct (Fut_next _ _ _ X HX _ _ _ H) as (c & g1 & l1 & E & O & I1 & H1). exists c, g1, l1. unfold mj_next_left. rewrite E.
  split; [reflexivity|]. split; [exact O|]. split; [exact I1|]. destruct A as [|a A]; [exact H1|]. destruct H1 as (H1 & H2 & H3). split; [apply Z.eqb_neq; lia|exact H3].
Qed.
Lemma nextR s g B : FutR s g B -> exists c g1 r1, mj_next_right s g = Some (c, g1, mj_set_rc c (mj_set_right r1 s)) /\ outside Wr g g1 /\ Ir r1 /\
  match B with [] => c = 0 | _ => (c =? 0) = false /\ CurR (mj_set_rc c (mj_set_right r1 s)) g1 B end.
Proof.
  intros H. destruct (Fut_next _ _ _ Y HY _ _ _ H) as (c & g1 & l1 & E & O & I1 & H1). exists c, g1, l1. unfold mj_next_right. rewrite E.
  split; [reflexivity|]. split; [exact O|]. split; [exact I1|]. destruct B as [|a A]; [exact H1|]. destruct H1 as (H1 & H2 & H3). split; [apply Z.eqb_neq; lia|exact H3].
Qed.

(** *** Spooling *)
Lemma spool_ok b0 : forall B k s g Bs, (length B <= k)%nat -> CurR s g B -> SR B -> Forall (fun b => kr b0 <= kr b) B ->
  mj_rkey s = kr b0 -> exists g1 s1 E T, B = E ++ T /\ Forall (fun b => kr b = kr b0 /\ 0 < snd b) E /\ Forall (fun b => kr b0 < kr b) T /\ SR T /\
  mj_spool rv rtail k s g (map vals Bs) = Some (g1, s1) /\ outside Wr g g1 /\
  mj_left s1 = mj_left s /\ mj_lc s1 = mj_lc s /\ mj_ls s1 = mj_ls s /\ mj_copy s1 = mj_copy s /\
  mj_buf s1 = map vals (Bs ++ E) /\ mj_iter s1 = map vals (Bs ++ E) /\
  match T with [] => mj_scan s1 = LoopSpooledRightEmpty /\ Ir (mj_right s1) | _ => mj_scan s1 = LoopSpooledRightHasData /\ HidR s1 g1 T end.
Proof.
  induction B as [|b B IH]; intros k s g Bs Hk HC HS HF Hkey; [contradiction|]. destruct k as [|k]; [cbn in Hk; lia|].
  assert (HC0 := HC). apply CurR_cons in HC. destruct HC as [HFut HSh]. assert (Hg := show_key_r _ _ _ HSh). cbn [mj_spool]. rewrite Hg, Hkey.
  inversion HF as [|? ? Hb HF']; subst. destruct (SR_cons _ _ HS) as (HS' & Hle & _).
  destruct (Z.eqb_spec (kr b) (kr b0)) as [E0|E0]; cbn [negb].
  - destruct (nextR _ _ _ HFut) as (c & g1 & r1 & En & O1 & I1 & H1). rewrite En.
    replace (mj_rc s :: map g Y) with (vals b).
    2:{ unfold vals. destruct HSh as (Hs1 & Hs2 & Hs3). rewrite Hs2. f_equal. symmetry. apply map_agree. exact Hs1. }
    replace (map vals Bs ++ [vals b]) with (map vals (Bs ++ [b])) by (rewrite map_app; reflexivity).
    destruct B as [|b' B].
    + subst c. cbn [Z.eqb]. eexists g1, _, [b], []. split; [reflexivity|]. split; [constructor; [split; [exact E0|apply HSh]|constructor]|]. split; [constructor|].
      split; [exact HS'|]. split; [reflexivity|]. split; [exact O1|]. cbn. auto 10.
    + destruct H1 as [H1 H2]. rewrite H1.
      destruct (IH k (mj_set_rc c (mj_set_right r1 s)) g1 (Bs ++ [b])) as (g2 & s2 & E & T & EB & HE & HT & HST & Esp & O2 & F1 & F2 & F3 & F4 & F5 & F6 & F7); auto.
      { cbn in Hk |- *. lia. }
      exists g2, s2, (b :: E), T. split; [cbn; rewrite EB; reflexivity|]. split; [constructor; [split; [exact E0|apply HSh]|exact HE]|]. split; [exact HT|]. split; [exact HST|].
      split; [exact Esp|]. split; [eapply outside_trans; eassumption|]. rewrite <- app_assoc in F5, F6. cbn [app] in F5, F6. auto 10.
  - exists (set_regs Y (tl (mj_rs s)) g). eexists _, [], (b :: B). split; [reflexivity|]. split; [constructor|].
    split; [constructor; [lia|]; eapply Forall_impl; [|exact Hle]; intros x Hx; cbn beta in Hx; lia|].
    split; [exact HS|]. split; [unfold mj_swap_right; reflexivity|]. split; [apply outY, (outside_set_regs Y)|]. rewrite app_nil_r. repeat (split; [reflexivity|]).
    exact (Cur_hide Ir Vr Wr Y (mj_right s) (mj_rc s) g (set_regs Y (tl (mj_rs s)) g) (b :: B) (outside_set_regs _ _ _) HC0).
Qed.

(** *** Reading one row ahead *)
Lemma takeL s g a A : CurL s g (a :: A) -> exists c g1 s1 g2 s2,
  mj_next_left (mj_copy_left lv ltail s g) g = Some (c, g1, s1) /\ mj_swap_left lv ltail s1 g1 = (g2, s2) /\
  outside Wl g g2 /\ ShowL s2 g2 a /\ mj_right s2 = mj_right s /\ mj_rc s2 = mj_rc s /\ mj_rs s2 = mj_rs s /\ Il (mj_left s2) /\
  match A with [] => c = 0 | x :: _ => (c =? 0) = false /\ HidL s2 g2 A /\ mj_lkey s2 = kl x end.
Proof.
  intros H. apply CurL_cons in H. destruct H as [HF HS].
  destruct (nextL (mj_copy_left lv ltail s g) g A HF) as (c & g1 & l1 & E & O & I1 & H1).
  eexists c, g1, _, (set_regs X (map g X) g1), _. split; [exact E|]. split; [reflexivity|].
  split; [eapply outside_trans; [exact O|]; apply outX, (outside_set_regs X)|].
  split; [split; [|exact (proj2 HS)]; eapply agree_trans; [apply (set_regs_vals X g g1), HnX|apply HS]|].
  repeat (split; [reflexivity|]). split; [exact I1|]. destruct A as [|x A]; [exact H1|]. destruct H1 as [H1 H2]. split; [exact H1|]. split.
  - exact (Cur_hide Il Vl Wl X l1 c g1 (set_regs X (map g X) g1) (x :: A) (outside_set_regs X _ _) H2).
  - unfold mj_lkey. cbn. apply CurL_cons in H2. exact (show_key_l _ _ _ (proj2 H2)).
Qed.
Lemma takeR s g a A : CurR s g (a :: A) -> exists c g1 s1 g2 s2,
  mj_next_right (mj_copy_right rv rtail s g) g = Some (c, g1, s1) /\ mj_swap_right rv rtail s1 g1 = (g2, s2) /\
  outside Wr g g2 /\ ShowR s2 g2 a /\ mj_left s2 = mj_left s /\ mj_lc s2 = mj_lc s /\ mj_ls s2 = mj_ls s /\ Ir (mj_right s2) /\
  match A with [] => c = 0 | x :: _ => (c =? 0) = false /\ HidR s2 g2 A /\ mj_rkey s2 = kr x end.
Proof.
  intros H. apply CurR_cons in H. destruct H as [HF HS].
  destruct (nextR (mj_copy_right rv rtail s g) g A HF) as (c & g1 & l1 & E & O & I1 & H1).
  eexists c, g1, _, (set_regs Y (map g Y) g1), _. split; [exact E|]. split; [reflexivity|].
  split; [eapply outside_trans; [exact O|]; apply outY, (outside_set_regs Y)|].
  split; [split; [|exact (proj2 HS)]; eapply agree_trans; [apply (set_regs_vals Y g g1), HnY|apply HS]|].
  repeat (split; [reflexivity|]). split; [exact I1|]. destruct A as [|x A]; [exact H1|]. destruct H1 as [H1 H2]. split; [exact H1|]. split.
  - exact (Cur_hide Ir Vr Wr Y l1 c g1 (set_regs Y (map g Y) g1) (x :: A) (outside_set_regs Y _ _) H2).
  - unfold mj_rkey. cbn. apply CurR_cons in H2. exact (show_key_r _ _ _ (proj2 H2)).
Qed.

(** *** Returning a row *)
Lemma ret_pair n n' x s g g0 a b out : ShowL s g a -> ShowR s g b -> outside W g0 g -> Il (mj_left s) -> Ir (mj_right s) -> (n' <= n)%nat ->
  Inv n' (mj_set_scan x s) g out -> GoodR n (mj_ret x (mj_both s) s g) g0 (pr a b :: out).
Proof.
  intros (H1 & H2 & H3) (H4 & H5 & H6) O IL IR Hn Hi. cbn. split; [exact O|]. split; [exact IL|]. split; [exact IR|]. unfold mj_both. rewrite H2, H5.
  split; [reflexivity|]. split; [apply Z.mul_pos_pos; assumption|]. split; [apply emit; assumption|]. exists n'. split; assumption.
Qed.
Lemma ret_left n n' x s g g0 a out : ShowL s g a -> agree Y g nullrow -> outside W g0 g -> Il (mj_left s) -> Ir (mj_right s) -> (n' <= n)%nat ->
  Inv n' (mj_set_scan x s) g out -> GoodR n (mj_ret x (mj_lc s) s g) g0 (nur a :: out).
Proof.
  intros (H1 & H2 & H3) H4 O IL IR Hn Hi. cbn. split; [exact O|]. split; [exact IL|]. split; [exact IR|]. rewrite H2.
  split; [reflexivity|]. split; [assumption|]. split; [apply emit; assumption|]. exists n'. split; assumption.
Qed.
Lemma ret_right n n' x s g g0 b out : ShowR s g b -> agree X g nullrow -> outside W g0 g -> Il (mj_left s) -> Ir (mj_right s) -> (n' <= n)%nat ->
  Inv n' (mj_set_scan x s) g out -> GoodR n (mj_ret x (mj_rc s) s g) g0 (nul b :: out).
Proof.
  intros (H1 & H2 & H3) H4 O IL IR Hn Hi. cbn. split; [exact O|]. split; [exact IL|]. split; [exact IR|]. rewrite H2.
  split; [reflexivity|]. split; [assumption|]. split; [apply emit; assumption|]. exists n'. split; assumption.
Qed.
Lemma ret_end n x s g g0 : outside W g0 g -> Il (mj_left s) -> Ir (mj_right s) -> GoodR n (mj_ret x 0 s g) g0 [].
Proof. intros O IL IR. cbn. auto. Qed.
Lemma FutL_I s g A : FutL s g A -> Il (mj_left s).
Proof. apply Fut_I. Qed.
Lemma FutR_I s g A : FutR s g A -> Ir (mj_right s).
Proof. apply Fut_I. Qed.
Lemma CurL_I s g A : CurL s g A -> Il (mj_left s).
Proof. apply Cur_I. Qed.
Lemma CurR_I s g A : CurR s g A -> Ir (mj_right s).
Proof. apply Cur_I. Qed.
Lemma Forall_lt_of_sorted_r b b2 B : kr b < kr b2 -> SR (b2 :: B) -> Forall (fun x => kr b < kr x) (b2 :: B).
Proof. intros H HS. destruct (SR_cons _ _ HS) as (_ & Hle & _). constructor; [exact H|]. eapply Forall_impl; [|exact Hle]. intros x Hx. cbn beta in Hx. lia. Qed.
Lemma Forall_lt_of_sorted_l b b2 B : kl b < kl b2 -> SL (b2 :: B) -> Forall (fun x => kl b < kl x) (b2 :: B).
Proof. intros H HS. destruct (SL_cons _ _ HS) as (_ & Hle & _). constructor; [exact H|]. eapply Forall_impl; [|exact Hle]. intros x Hx. cbn beta in Hx. lia. Qed.
Lemma noeq_r (k : Z) B : Forall (fun x => k < kr x) B -> filter (fun b => k =? kr b) B = [].
Proof. intros H. apply filter_none. eapply Forall_impl; [|exact H]. intros x Hx. cbn beta in Hx. apply Z.eqb_neq. lia. Qed.
Lemma allgt_r (k : Z) B : Forall (fun x => k < kr x) B -> filter (fun b => k <? kr b) B = B.
Proof. intros H. apply filter_all. eapply Forall_impl; [|exact H]. intros x Hx. cbn beta in Hx. apply Z.ltb_lt. lia. Qed.

(** *** The comparison *)
Lemma compare_ok n s g A B : CL s g A -> CR s g B -> SL A -> SR B -> (2 * (length A + length B) <= n)%nat -> (n < fuel)%nat ->
  GoodR n (mj_compare fuel lv rv ltail rtail lopt ropt s g) g (merged A B).
Proof.
  intros HA HB HSL HSR Hn Hf. unfold mj_compare.
  destruct HA as [HA|(El & -> & IL & HgX)].
  2:{ destruct HB as [HB|(Er & _)]; [|rewrite El, Er in Hopt; discriminate].
      destruct B as [|b B]; [contradiction|]. assert (IR := CurR_I _ _ _ HB). apply CurR_cons in HB. destruct HB as [HF HS]. destruct (SR_cons _ _ HSR) as (HSR' & _ & _ & Hnull).
      assert (Hk := show_key_r _ _ _ HS). assert (HgX0 := HgX lv (or_introl eq_refl)). cbn beta in HgX0. rewrite Hk, HgX0.
      assert (Hlt : kr b < null32) by (apply Hnull; rewrite El; reflexivity).
      rewrite (proj2 (Z.ltb_ge _ _)) by lia. rewrite (proj2 (Z.ltb_lt _ _)) by lia. rewrite El at 1. rewrite Z.eqb_refl.
      cbn [merged OpMergeProofs.merged]. unfold OpMergeProofs.nuls. rewrite El at 1. cbn [map].
      apply (ret_right _ (2 * length B)); [exact HS|exact HgX|apply outside_refl|exact IL|exact IR|cbn in Hn; lia|].
      cbn [Inv mj_scan mj_set_scan]. exists [], B. split; [right; auto|]. split; [exact HF|]. split; [exact HSL|]. split; [exact HSR'|]. split; [|cbn; lia].
      cbn. unfold OpMergeProofs.nuls. rewrite El. reflexivity. }
  destruct HB as [HB|(Er & -> & IR & HgY)].
  2:{ destruct A as [|a A]; [contradiction|]. assert (IL := CurL_I _ _ _ HA). apply CurL_cons in HA. destruct HA as [HF HS]. destruct (SL_cons _ _ HSL) as (HSL' & _ & _ & Hnull).
      assert (Hk := show_key_l _ _ _ HS). assert (HgY0 := HgY rv (or_introl eq_refl)). cbn beta in HgY0. rewrite Hk, HgY0.
      assert (Hlt : kl a < null32) by (apply Hnull; rewrite Er; apply orb_true_r).
      rewrite (proj2 (Z.ltb_lt _ _)) by lia. rewrite Er at 1. rewrite Z.eqb_refl.
      rewrite merged_nil. unfold OpMergeProofs.nurs. rewrite Er at 1. cbn [map].
      apply (ret_left _ (2 * length A)); [exact HS|exact HgY|apply outside_refl|exact IL|exact IR|cbn in Hn; lia|].
      cbn [Inv mj_scan mj_set_scan]. exists A, []. split; [exact HF|]. split; [right; auto|]. split; [exact HSL'|]. split; [exact HSR|]. split; [|cbn; lia].
      rewrite merged_nil. unfold OpMergeProofs.nurs. rewrite Er. reflexivity. }
  destruct A as [|a A]; [contradiction|]. destruct B as [|b B]; [contradiction|].
  assert (IL := CurL_I _ _ _ HA). assert (IR := CurR_I _ _ _ HB). assert (HA0 := HA). assert (HB0 := HB).
  apply CurL_cons in HA. destruct HA as [HFL HShL]. apply CurR_cons in HB. destruct HB as [HFR HShR].
  assert (Ka := show_key_l _ _ _ HShL). assert (Kb := show_key_r _ _ _ HShR). rewrite Ka, Kb.
  destruct (SL_cons _ _ HSL) as (HSL' & HleL & HltL & HnL). destruct (SR_cons _ _ HSR) as (HSR' & HleR & HltR & HnR). cbn [length] in Hn.
  destruct (Z.ltb_spec (kl a) (kr b)) as [C|C].
  { rewrite merged_lt. 2:{ constructor; [exact C|]. eapply Forall_impl; [|exact HleR]. intros x Hx. cbn beta in Hx. lia. }
    destruct ropt eqn:Er.
    - assert (Hb : kr b < null32) by (apply HnR, orb_true_r). destruct (Z.eqb_spec (kr b) null32) as [C'|_]; [lia|]. cbn [OpMergeProofs.nurs map app].
      apply (ret_left _ (2 * (length A + length (b :: B)) + 1) _ (mj_copy_right rv rtail s g)); [| | | | | |].
      + eapply ShowL_r; [apply outY, set_all_outside| |exact HShL]. reflexivity.
      + apply set_all_agree.
      + apply outr, outY, set_all_outside.
      + exact IL.
      + exact IR.
      + cbn [length]; lia.
      + cbn [Inv mj_scan mj_set_scan]. exists A, (b :: B). split; [eapply FutL_r; [apply outY, set_all_outside| |exact HFL]; reflexivity|].
        split; [exact (Cur_hide Ir Vr Wr Y (mj_right s) (mj_rc s) g (set_all Y null32 g) (b :: B) (set_all_outside Y _ _) HB0)|]. repeat (split; [assumption|]). split; [rewrite Er; reflexivity|lia].
    - cbn [OpMergeProofs.nurs app GoodR mj_cont]. split; [apply outside_refl|]. exists (2 * (length A + length (b :: B)))%nat. split; [cbn [length]; lia|].
      cbn [Inv mj_scan mj_set_scan]. exists A, (b :: B). split; [exact HFL|]. split; [left; exact HB0|]. repeat (split; [assumption|]). split; [rewrite Er; reflexivity|lia]. }
  destruct (Z.ltb_spec (kr b) (kl a)) as [C'|C'].
  { rewrite merged_gt by assumption.
    destruct lopt eqn:El.
    - assert (Hb : kl a < null32) by (apply HnL; reflexivity). destruct (Z.eqb_spec (kl a) null32) as [C''|_]; [lia|]. cbn [OpMergeProofs.nuls map app].
      apply (ret_right _ (2 * (length (a :: A) + length B) + 1) _ (mj_copy_left lv ltail s g)); [| | | | | |].
      + eapply ShowR_l; [apply outX, set_all_outside| |exact HShR]. reflexivity.
      + apply set_all_agree.
      + apply outl, outX, set_all_outside.
      + exact IL.
      + exact IR.
      + cbn [length]; lia.
      + cbn [Inv mj_scan mj_set_scan]. exists (a :: A), B. split; [exact (Cur_hide Il Vl Wl X (mj_left s) (mj_lc s) g (set_all X null32 g) (a :: A) (set_all_outside X _ _) HA0)|].
        split; [eapply FutR_l; [apply outX, set_all_outside| |exact HFR]; reflexivity|]. repeat (split; [assumption|]). split; [rewrite El; reflexivity|lia].
    - cbn [OpMergeProofs.nuls app GoodR mj_cont]. split; [apply outside_refl|]. exists (2 * (length (a :: A) + length B))%nat. split; [cbn [length]; lia|].
      cbn [Inv mj_scan mj_set_scan]. exists (a :: A), B. split; [left; exact HA0|]. split; [exact HFR|]. repeat (split; [assumption|]). split; [rewrite El; reflexivity|lia]. }
  assert (Eab : kl a = kr b) by lia.
  destruct (takeL _ _ _ _ HA0) as (c & g1 & s1 & g2 & s2 & E1 & E2 & O2 & Sh2 & F1 & F2 & F3 & I2 & H2). rewrite E1, E2.
  assert (IR2 : Ir (mj_right s2)) by (rewrite F1; exact IR).
  destruct A as [|a2 A].
  { subst c. cbn [Z.eqb]. rewrite merged_end_left by assumption.
    apply (ret_pair _ (2 * length B + 1)); [exact Sh2|eapply ShowR_l; eassumption|apply outl, O2|exact I2|exact IR2|cbn in Hn; lia|].
    cbn [Inv mj_scan mj_set_scan]. split; [exact I2|]. exists B. split; [eapply FutR_l; [exact O2| |exact HFR]; exact F1|]. split; [exact HSR'|]. split; [lia|].
    left. exists a. split; [exact Sh2|]. split; [exact HnL|]. split; [rewrite Eab; exact HleR|reflexivity]. }
  destruct H2 as (H2 & Hid2 & Key2). rewrite H2.
  assert (HB2 : CurR s2 g2 (b :: B)) by (eapply CurR_l; eassumption).
  destruct (takeR _ _ _ _ HB2) as (c' & g3 & s3 & g4 & s4 & E3 & E4 & O4 & Sh4 & G1 & G2 & G3 & I4 & H4). rewrite E3, E4.
  assert (Sh4' : ShowL s4 g4 a) by (eapply ShowL_r; eassumption).
  assert (Hid4 : HidL s4 g4 (a2 :: A)) by (eapply HidL_r; eassumption).
  assert (IL4 : Il (mj_left s4)) by (rewrite G1; exact I2).
  assert (O : outside W g g4) by (eapply outside_trans; [apply outl, O2|apply outr, O4]).
  assert (Ka4 := show_key_l _ _ _ Sh4'). assert (Kb4 := show_key_r _ _ _ Sh4).
  assert (Key4 : mj_lkey s4 = kl a2) by (unfold mj_lkey in *; rewrite G3; exact Key2).
  destruct B as [|b2 B].
  { subst c'. cbn [Z.eqb]. rewrite merged_end_right; [|exact Eab|].
    2:{ intros El. split; [rewrite El in Hopt; exact Hopt|]. eapply Forall_impl; [|exact (HltL El)]. intros x Hx. cbn beta in Hx. lia. }
    apply (ret_pair _ (2 * length (a2 :: A) + 1)); [exact Sh4'|exact Sh4|exact O|exact IL4|exact I4|cbn in Hn; cbn; lia|].
    cbn [Inv mj_scan mj_set_scan]. split; [exact I4|]. exists (a2 :: A), b. split; [exact Hid4|]. split; [exact HSL'|]. split; [lia|].
    split; [exact Sh4|]. split; [exact HnR|]. split; [rewrite <- Eab; exact HleL|reflexivity]. }
  destruct H4 as (H4 & HidR4 & KeyR4). rewrite H4. rewrite Ka4, Kb4, Key4, KeyR4.
  rewrite merged_eq by assumption. inversion HleL as [|? ? Ha2 _]; subst. inversion HleR as [|? ? Hb2 _]; subst.
  destruct (Z.eqb_spec (kl a) (kl a2)) as [D|D]; destruct (Z.eqb_spec (kr b) (kr b2)) as [D'|D'].
  - (* both repeat *)
    assert (El : lopt = false). { destruct lopt; [|reflexivity]. specialize (HltL eq_refl). inversion HltL; lia. }
    assert (Er : ropt = false). { destruct ropt; [|reflexivity]. specialize (HltR eq_refl). inversion HltR; lia. }
    unfold mj_nm. destruct (swapR _ _ _ HidR4) as (g5 & s5 & E5 & C5 & O5 & Es5). rewrite E5.
    assert (Ev : mj_rs s5 = vals b).
    { rewrite Es5. cbn. unfold vals. destruct Sh4 as (Q1 & Q2 & _). rewrite Q2. f_equal. apply (map_agree Y). exact Q1. }
    rewrite Ev. change [vals b] with (map vals [b]).
    destruct (spool_ok b (b2 :: B) fuel (mj_set_copy true s5) g5 [b]) as (g6 & s6 & E & T & EB & HE & HT & HST & Esp & O6 & P1 & P2 & P3 & P4 & P5 & P6 & P7);
      [cbn in Hn; cbn; lia|exact C5|exact HSR'|exact HleR|unfold mj_rkey; cbn [mj_rs mj_set_copy]; rewrite Ev; reflexivity|].
    rewrite Esp. cbn [GoodR]. split; [eapply outside_trans; [exact O|]; apply outr; eapply outside_trans; eassumption|].
    exists (2 * (length (a2 :: A) + length T) + 1)%nat. assert (LB : (length T <= length (b2 :: B))%nat) by (rewrite EB, app_length; lia).
    split; [cbn [length] in *; lia|].
    assert (O46 : outside Wr g4 g6) by (eapply outside_trans; eassumption).
    assert (Hsp : spooled (match T with [] => false | _ => true end) (2 * (length (a2 :: A) + length T) + 1) s6 g6
      (pr a b :: map (pr a) (filter (fun b0 => kl a =? kr b0) (b2 :: B)) ++ merged (a2 :: A) (if lopt then filter (fun b0 => kl a <? kr b0) (b2 :: B) else b :: b2 :: B))).
    { split; [exact El|]. split; [exact Er|]. exists a, (a2 :: A), (b :: E), (b :: E), T.
      split; [eapply ShowL_r; [exact O46| |exact Sh4']; rewrite P2, Es5; reflexivity|].
      assert (Ec : mj_copy s6 = true) by (rewrite P4; reflexivity). rewrite Ec.
      split; [eapply HidL_r; [exact O46| | |exact Hid4]; [rewrite P1, Es5|rewrite P3, Es5]; reflexivity|].
      split; [exact P5|]. split; [exact P6|].
      assert (Hbs : Forall (fun x => kr x = kl a /\ 0 < snd x) (b :: E)).
      { constructor; [split; [lia|apply Sh4]|]. eapply Forall_impl; [|exact HE]. intros x (Hx & Hx'). split; [lia|exact Hx']. }
      split; [exact Hbs|]. split; [exact Hbs|]. split; [discriminate|].
      split; [destruct T; [split; [reflexivity|]|]; apply P7|]. split; [exact HST|].
      split; [eapply Forall_impl; [|exact HT]; intros x Hx; cbn beta in Hx; lia|]. split; [exact HSL'|]. split; [exact HleL|]. split; [|lia].
      rewrite El. rewrite EB. cbn [map app]. f_equal. f_equal. rewrite filter_app.
      rewrite (filter_all _ E), (noeq_r _ T), app_nil_r; [reflexivity| |].
      + eapply Forall_impl; [|exact HT]; intros x Hx; cbn beta in Hx; lia.
      + eapply Forall_impl; [|exact HE]; intros x (Hx & _). apply Z.eqb_eq. lia. }
    unfold Inv. destruct T; destruct P7 as (P7 & _); rewrite P7; exact Hsp.
  - assert (El : lopt = false). { destruct lopt; [|reflexivity]. specialize (HltL eq_refl). inversion HltL; lia. }
    assert (HG : Forall (fun x => kr b < kr x) (b2 :: B)) by (apply Forall_lt_of_sorted_r; [lia|exact HSR']).
    apply (ret_pair _ (2 * (length (a2 :: A) + length (b2 :: B)) + 1)); [exact Sh4'|exact Sh4|exact O|exact IL4|exact I4|cbn [length] in *; lia|].
    cbn [Inv mj_scan mj_set_scan]. split; [exact El|]. exists (a2 :: A), b, (b2 :: B). split; [split; [exact Hid4|rewrite Ka4; exact Eab]|].
    split; [exact Sh4|]. split; [exact HidR4|]. split; [exact HSL'|]. split; [exact HSR'|]. split; [rewrite <- Eab; exact HleL|]. split; [exact HG|]. split; [|lia].
    rewrite noeq_r by (rewrite Eab; exact HG). rewrite El. reflexivity.
  - assert (Er : ropt = false). { destruct ropt; [|reflexivity]. specialize (HltR eq_refl). inversion HltR; lia. }
    assert (HG : Forall (fun x => kl a < kl x) (a2 :: A)) by (apply Forall_lt_of_sorted_l; [lia|exact HSL']).
    apply (ret_pair _ (2 * (length (a2 :: A) + length (b2 :: B)) + 1)); [exact Sh4'|exact Sh4|exact O|exact IL4|exact I4|cbn [length] in *; lia|].
    cbn [Inv mj_scan mj_set_scan]. split; [exact Er|]. exists a, (a2 :: A), (b2 :: B). split; [split; [exact HidR4|rewrite Kb4; symmetry; exact Eab]|].
    split; [exact Sh4'|]. split; [exact Hid4|]. split; [exact HSL'|]. split; [exact HSR'|]. split; [exact HG|]. split; [rewrite Eab; exact HleR|]. split; [|lia].
    f_equal. destruct lopt eqn:El; [reflexivity|]. rewrite <- (merged_filter lv rv ltail false ropt (fun b0 => kl a <? kr b0) (a2 :: A) (b :: b2 :: B) eq_refl).
    + rewrite Er. cbn [filter]. destruct (Z.ltb_spec (kl a) (kr b)); [lia|]. reflexivity.
    + intros x _ Hx. apply Z.ltb_ge in Hx. eapply Forall_impl; [|exact HG]. intros y Hy. cbn beta in Hy. lia.
  - assert (HG : Forall (fun x => kr b < kr x) (b2 :: B)) by (apply Forall_lt_of_sorted_r; [lia|exact HSR']).
    assert (HG' : Forall (fun x => kl a < kl x) (a2 :: A)) by (apply Forall_lt_of_sorted_l; [lia|exact HSL']).
    apply (ret_pair _ (2 * (length (a2 :: A) + length (b2 :: B)) + 1)); [exact Sh4'|exact Sh4|exact O|exact IL4|exact I4|cbn [length] in *; lia|].
    cbn [Inv mj_scan mj_set_scan]. exists (a2 :: A), (b2 :: B). split; [exact Hid4|]. split; [exact HidR4|]. split; [exact HSL'|]. split; [exact HSR'|]. split; [|lia].
    rewrite noeq_r by (rewrite Eab; exact HG). cbn [map app]. destruct lopt eqn:El.
    + rewrite allgt_r by (rewrite Eab; exact HG). reflexivity.
    + apply merged_drop; [reflexivity|]. eapply Forall_impl; [|exact HG']. intros y Hy. cbn beta in Hy. lia.
Qed.

(** *** One round *)
Lemma end_right_gt b A : Forall (fun a => kr b < kl a) A -> end_right b A = nurs A.
Proof.
  induction 1 as [|a A H _ IH]; [unfold OpMergeProofs.nurs; destruct ropt; reflexivity|]. unfold OpMergeProofs.end_right in *. cbn [flat_map]. rewrite IH.
  destruct (Z.eqb_spec (kl a) (kr b)); [lia|]. unfold OpMergeProofs.nurs. destruct ropt; reflexivity.
Qed.
Lemma end_left_gt a B : Forall (fun b => kl a < kr b) B -> end_left a B = nuls B.
Proof. intros H. unfold OpMergeProofs.end_left. rewrite noeq_r, allgt_r by exact H. reflexivity. Qed.
Lemma merged_drops A : forall Bs T, lopt = false -> Forall (fun b => Forall (fun a => kl a <> kr b) A) Bs -> merged A (Bs ++ T) = merged A T.
Proof. intros Bs T El. induction 1 as [|b Bs H _ IH]; [reflexivity|]. cbn [app]. rewrite merged_drop by assumption. exact IH. Qed.

Lemma empty_left_ok n s g out : mj_scan s = LoopEmptyLeft -> Inv n s g out -> GoodR n (mj_empty_left lv rv ltail lopt s g) g out.
Proof.
  intros Es HI. unfold Inv in HI. rewrite Es in HI. destruct HI as (IL & B & HF & HS & Hn & Hc). unfold mj_empty_left.
  destruct (nextR _ _ _ HF) as (c & g1 & r1 & E & O & I1 & H1). rewrite E. set (s1 := mj_set_rc c (mj_set_right r1 s)) in *.
  destruct B as [|b B].
  { subst c. cbn [Z.eqb]. replace out with (@nil (regs * Z)); [apply ret_end; [apply outr, O|exact IL|exact I1]|].
    destruct Hc as [(a & _ & _ & _ & ->)|(El & _ & ->)]; unfold OpMergeProofs.end_left, OpMergeProofs.nuls; destruct lopt; reflexivity. }
  destruct H1 as [H1 H2]. rewrite H1. apply CurR_cons in H2. destruct H2 as [HF1 Sh1]. destruct (SR_cons _ _ HS) as (HS' & Hle & _ & Hnull).
  assert (Kb := show_key_r _ _ _ Sh1). cbn [length] in Hn.
  destruct Hc as [(a & Sh & Hna & Hall & ->)|(El & HgX & ->)].
  - assert (Sh' : ShowL s1 g1 a) by (eapply ShowL_r; [exact O| |exact Sh]; reflexivity). assert (Ka := show_key_l _ _ _ Sh'). rewrite Ka, Kb.
    inversion Hall as [|? ? Hb Hall']; subst.
    destruct (Z.eqb_spec (kl a) (kr b)) as [D|D].
    + replace (end_left a (b :: B)) with (pr a b :: end_left a B).
      2:{ unfold OpMergeProofs.end_left. cbn [filter]. rewrite (proj2 (Z.eqb_eq _ _) D). destruct (Z.ltb_spec (kl a) (kr b)); [lia|]. reflexivity. }
      apply (ret_pair _ (2 * length B + 1)); [exact Sh'|exact Sh1|apply outr, O|exact IL|exact I1|lia|].
      cbn [Inv mj_scan mj_set_scan]. split; [exact IL|]. exists B. split; [exact HF1|]. split; [exact HS'|]. split; [lia|]. left. exists a. repeat (split; [assumption|]). reflexivity.
    + assert (HG : Forall (fun x => kl a < kr x) (b :: B)) by (constructor; [lia|]; eapply Forall_impl; [|exact Hle]; intros x Hx; cbn beta in Hx; lia).
      rewrite end_left_gt by exact HG. destruct lopt eqn:El.
      * destruct (Z.eqb_spec (kl a) null32) as [C|_]; [specialize (Hna eq_refl); lia|]. cbn [negb]. destruct (Z.ltb_spec (kr b) (kl a)); [lia|].
        cbn [OpMergeProofs.nuls map]. apply (ret_right _ (2 * length B + 1)); [eapply ShowR_l; [apply outX, set_all_outside|reflexivity|exact Sh1]|apply set_all_agree|
          eapply outside_trans; [apply outr, O|apply outl, outX, set_all_outside]|exact IL|exact I1|lia|].
        cbn [Inv mj_scan mj_set_scan]. split; [exact IL|]. exists B. split; [eapply FutR_l; [apply outX, set_all_outside|reflexivity|exact HF1]|]. split; [exact HS'|]. split; [lia|].
        right. rewrite El. split; [reflexivity|]. split; [apply set_all_agree|reflexivity].
      * rewrite (proj2 (Z.ltb_lt _ _)) by lia. cbn [OpMergeProofs.nuls]. apply ret_end; [apply outr, O|exact IL|exact I1].
  - assert (HgX1 : agree X g1 nullrow).
    { eapply agree_trans; [|exact HgX]. eapply agree_incl; [exact XW|]. apply frame_l, O. }
    assert (Ka := HgX1 lv (or_introl eq_refl)). cbn beta in Ka. rewrite Ka, Kb. assert (kr b < null32) by (apply Hnull; rewrite El; reflexivity).
    destruct (Z.eqb_spec null32 (kr b)); [lia|]. rewrite El at 1. rewrite Z.eqb_refl. cbn [negb].
    unfold OpMergeProofs.nuls. rewrite El at 1. cbn [map].
    apply (ret_right _ (2 * length B + 1)); [exact Sh1|exact HgX1|apply outr, O|exact IL|exact I1|lia|].
    cbn [Inv mj_scan mj_set_scan]. split; [exact IL|]. exists B. split; [exact HF1|]. split; [exact HS'|]. split; [lia|].
    right. split; [exact El|]. split; [exact HgX1|]. unfold OpMergeProofs.nuls. rewrite El. reflexivity.
Qed.
Lemma empty_right_ok n s g g0 a A out : CurL s g (a :: A) -> SL (a :: A) -> Ir (mj_right s) -> outside W g0 g -> (2 * length A + 1 <= n)%nat ->
  (exists b, ShowR s g b /\ (lopt || ropt = true -> kr b < null32) /\ Forall (fun a => kr b <= kl a) (a :: A) /\ out = end_right b (a :: A)) \/
  (ropt = true /\ agree Y g nullrow /\ out = nurs (a :: A)) ->
  GoodR n (mj_empty_right lv rv rtail ropt s g) g0 out.
Proof.
  intros HC HS IR O Hn Hc. unfold mj_empty_right. assert (IL := CurL_I _ _ _ HC). apply CurL_cons in HC. destruct HC as [HF1 Sh1].
  destruct (SL_cons _ _ HS) as (HS' & Hle & _ & Hnull). assert (Ka := show_key_l _ _ _ Sh1).
  destruct Hc as [(b & Sh & Hnb & Hall & ->)|(El & HgX & ->)].
  - assert (Kb := show_key_r _ _ _ Sh). rewrite Ka, Kb.
    inversion Hall as [|? ? Hb Hall']; subst.
    destruct (Z.eqb_spec (kl a) (kr b)) as [D|D].
    + replace (end_right b (a :: A)) with (pr a b :: end_right b A).
      2:{ unfold OpMergeProofs.end_right. cbn [flat_map]. rewrite (proj2 (Z.eqb_eq _ _) D). reflexivity. }
      apply (ret_pair _ (2 * length A + 1)); [exact Sh1|exact Sh|exact O|exact IL|exact IR|lia|].
      cbn [Inv mj_scan mj_set_scan]. split; [exact IR|]. exists A. split; [exact HF1|]. split; [exact HS'|]. split; [lia|]. left. exists b. repeat (split; [assumption|]). reflexivity.
    + assert (HG : Forall (fun x => kr b < kl x) (a :: A)) by (constructor; [lia|]; eapply Forall_impl; [|exact Hle]; intros x Hx; cbn beta in Hx; lia).
      rewrite end_right_gt by exact HG. destruct ropt eqn:El.
      * destruct (Z.eqb_spec (kr b) null32) as [C|_]; [specialize (Hnb (orb_true_r _)); lia|]. cbn [negb]. destruct (Z.ltb_spec (kl a) (kr b)); [lia|].
        cbn [OpMergeProofs.nurs map]. apply (ret_left _ (2 * length A + 1)); [eapply ShowL_r; [apply outY, set_all_outside|reflexivity|exact Sh1]|apply set_all_agree|
          eapply outside_trans; [exact O|apply outr, outY, set_all_outside]|exact IL|exact IR|lia|].
        cbn [Inv mj_scan mj_set_scan]. split; [exact IR|]. exists A. split; [eapply FutL_r; [apply outY, set_all_outside|reflexivity|exact HF1]|]. split; [exact HS'|]. split; [lia|].
        right. rewrite El. split; [reflexivity|]. split; [apply set_all_agree|reflexivity].
      * rewrite (proj2 (Z.ltb_lt _ _)) by lia. cbn [OpMergeProofs.nurs]. apply ret_end; [exact O|exact IL|exact IR].
  - assert (Kb := HgX rv (or_introl eq_refl)). cbn beta in Kb. rewrite Ka, Kb. assert (kl a < null32) by (apply Hnull; rewrite El; apply orb_true_r).
    destruct (Z.eqb_spec (kl a) null32); [lia|]. rewrite El at 1. rewrite Z.eqb_refl. cbn [negb].
    unfold OpMergeProofs.nurs. rewrite El at 1. cbn [map].
    apply (ret_left _ (2 * length A + 1)); [exact Sh1|exact HgX|exact O|exact IL|exact IR|lia|].
    cbn [Inv mj_scan mj_set_scan]. split; [exact IR|]. exists A. split; [exact HF1|]. split; [exact HS'|]. split; [lia|].
    right. split; [exact El|]. split; [exact HgX|]. unfold OpMergeProofs.nurs. rewrite El. reflexivity.
Qed.
Lemma equal_left_ok n s g g0 A b B : lopt = false -> CurL s g A -> mj_lkey s = kr b -> ShowR s g b -> HidR s g B -> SL A -> SR B ->
  Forall (fun a => kr b <= kl a) A -> Forall (fun x => kr b < kr x) B -> (2 * (length A + length B) + 1 <= n)%nat -> outside W g0 g ->
  GoodR n (mj_equal_left lv rv rtail s g) g0 (merged A (b :: B)).
Proof.
  intros El HC Hk Sh HH HSL HSR Hle Hlt Hn O. destruct A as [|a A]; [contradiction|]. assert (HC0 := HC). assert (IL := CurL_I _ _ _ HC).
  apply CurL_cons in HC. destruct HC as [HF ShL]. assert (IR : Ir (mj_right s)) by exact (Hid_I _ _ _ _ _ _ _ _ HH).
  unfold mj_equal_left. rewrite (show_key_l _ _ _ ShL), Hk. destruct (SL_cons _ _ HSL) as (HSL' & HleL & _). inversion Hle as [|? ? Hb Hle']; subst.
  destruct (Z.eqb_spec (kl a) (kr b)) as [D|D]; cbn [negb].
  - rewrite merged_eq; [|exact D|eapply Forall_impl; [|exact Hlt]; intros x Hx; cbn beta in Hx; lia]. rewrite noeq_r by (rewrite D; exact Hlt). cbn [map app].
    apply (ret_pair _ (2 * (length A + length B) + 1)); [exact ShL|exact Sh|exact O|exact IL|exact IR|cbn [length] in Hn; lia|].
    cbn [Inv mj_scan mj_set_scan]. split; [exact El|]. exists A, b, B. split; [split; [exact HF|exact Hk]|]. repeat (split; [assumption|]). split; [rewrite El; reflexivity|lia].
  - destruct (swapR _ _ _ HH) as (g1 & s1 & E1 & C1 & O1 & Es1). rewrite E1. cbn [GoodR mj_cont].
    split; [eapply outside_trans; [exact O|apply outr, O1]|]. exists (2 * (length (a :: A) + length B))%nat. split; [lia|].
    cbn [Inv mj_scan mj_set_scan]. exists (a :: A), B. split; [eapply CurL_r; [exact O1| | |exact HC0]; rewrite Es1; reflexivity|]. split; [exact C1|]. split; [exact HSL|]. split; [exact HSR|]. split; [|lia].
    apply merged_drop; [exact El|]. constructor; [exact D|]. eapply Forall_impl; [|exact HleL]. intros x Hx. cbn beta in Hx. lia.
Qed.
Lemma equal_right_ok n s g g0 a A B : ropt = false -> CurR s g B -> mj_rkey s = kl a -> ShowL s g a -> HidL s g A -> SL A -> SR B ->
  Forall (fun x => kl a < kl x) A -> Forall (fun b => kl a <= kr b) B -> (2 * (length A + length B) + 1 <= n)%nat -> outside W g0 g ->
  GoodR n (mj_equal_right lv rv ltail s g) g0 (map (pr a) (filter (fun b => kl a =? kr b) B) ++ merged A (filter (fun b => kl a <? kr b) B)).
Proof.
  intros El HC Hk Sh HH HSL HSR Hlt Hle Hn O. destruct B as [|b B]; [contradiction|]. assert (HC0 := HC). assert (IR := CurR_I _ _ _ HC).
  apply CurR_cons in HC. destruct HC as [HF ShR]. assert (IL : Il (mj_left s)) by exact (Hid_I _ _ _ _ _ _ _ _ HH).
  unfold mj_equal_right. rewrite (show_key_r _ _ _ ShR), Hk. destruct (SR_cons _ _ HSR) as (HSR' & HleR & _). inversion Hle as [|? ? Hb Hle']; subst.
  destruct (Z.eqb_spec (kr b) (kl a)) as [D|D]; cbn [negb].
  - cbn [filter]. rewrite (proj2 (Z.eqb_eq (kl a) (kr b))) by auto. rewrite (proj2 (Z.ltb_ge (kl a) (kr b))) by lia. cbn [map app].
    apply (ret_pair _ (2 * (length A + length B) + 1)); [exact Sh|exact ShR|exact O|exact IL|exact IR|cbn [length] in Hn; lia|].
    cbn [Inv mj_scan mj_set_scan]. split; [exact El|]. exists a, A, B. split; [split; [exact HF|exact Hk]|]. repeat (split; [assumption|]). split; [reflexivity|lia].
  - assert (HG : Forall (fun x => kl a < kr x) (b :: B)) by (constructor; [lia|]; eapply Forall_impl; [|exact HleR]; intros x Hx; cbn beta in Hx; lia).
    rewrite noeq_r, allgt_r by exact HG. cbn [map app].
    destruct (swapL _ _ _ HH) as (g1 & s1 & E1 & C1 & O1 & Es1). rewrite E1. cbn [GoodR mj_cont].
    split; [eapply outside_trans; [exact O|apply outl, O1]|]. exists (2 * (length A + length (b :: B)))%nat. split; [lia|].
    cbn [Inv mj_scan mj_set_scan]. exists A, (b :: B). split; [exact C1|]. split; [eapply CurR_l; [exact O1| | |exact HC0]; rewrite Es1; reflexivity|]. split; [exact HSL|]. split; [exact HSR|]. split; [reflexivity|lia].
Qed.
Lemma spooled_ok (more : bool) n s g g0 a A Bs T : lopt = false -> ropt = false -> mj_scan s = (if more then LoopSpooledRightHasData else LoopSpooledRightEmpty) ->
  CurL s g A -> mj_copy s = false -> mj_lkey s = kl a -> mj_buf s = map vals Bs -> Forall (fun b => kr b = kl a /\ 0 < snd b) Bs -> Bs <> [] ->
  (if more then HidR s g T else T = [] /\ Ir (mj_right s)) -> SR T -> Forall (fun b => kl a < kr b) T -> SL A -> Forall (fun x => kl a <= kl x) A ->
  (2 * (length A + length T) + 1 <= n)%nat -> outside W g0 g ->
  GoodR n (mj_spooled lv rv rtail ropt s g) g0 (merged A (Bs ++ T)).
Proof.
  intros El Er Es HC Hco Hk Hbuf HBs Hne HT HSR HgT HSL Hle Hn O. destruct A as [|a2 A]; [contradiction|]. assert (HC0 := HC). assert (IL := CurL_I _ _ _ HC).
  apply CurL_cons in HC. destruct HC as [HF ShL]. assert (IR : Ir (mj_right s)) by (destruct more; [exact (Hid_I _ _ _ _ _ _ _ _ HT)|apply HT]).
  destruct (SL_cons _ _ HSL) as (HSL' & HleL & _). inversion Hle as [|? ? Ha Hle']; subst.
  unfold mj_spooled. rewrite (show_key_l _ _ _ ShL), Hk. destruct (Z.eqb_spec (kl a2) (kl a)) as [D|D].
  - cbn [GoodR mj_cont]. split; [exact O|]. exists (2 * (length A + length T) + 1)%nat. split; [cbn [length] in Hn; lia|].
    assert (Hsp : spooled more (2 * (length A + length T) + 1) (mj_set_scan (mj_scan s) (mj_set_buf (mj_buf s) (mj_buf s) s)) g (merged (a2 :: A) (Bs ++ T))).
    { split; [exact El|]. split; [exact Er|]. exists a2, A, Bs, Bs, T. split; [exact ShL|].
      cbn [mj_copy mj_set_scan mj_set_buf]. rewrite Hco. split; [split; [exact HF|]; rewrite D; exact Hk|].
      split; [exact Hbuf|]. split; [exact Hbuf|]. rewrite D. split; [exact HBs|]. split; [exact HBs|]. split; [exact Hne|]. split; [exact HT|]. split; [exact HSR|]. split; [exact HgT|].
      split; [exact HSL'|]. split; [rewrite <- D; exact HleL|]. split; [|lia].
      cbn [OpMergeProofs.merged]. rewrite filter_app.
      assert (E1 : filter (fun b => kl a2 =? kr b) Bs = Bs).
      { apply filter_all. eapply Forall_impl; [|exact HBs]. intros x (Hx & _). apply Z.eqb_eq. lia. }
      rewrite filter_app, E1, (noeq_r _ T), app_nil_r by (rewrite D; exact HgT). rewrite El. cbn [OpMergeProofs.nuls app]. destruct Bs; [contradiction|reflexivity]. }
    unfold Inv. cbn [mj_scan mj_set_scan]. rewrite Es in *. destruct more; exact Hsp.
  - assert (HD : Forall (fun b => Forall (fun x => kl x <> kr b) (a2 :: A)) Bs).
    { eapply Forall_impl; [|exact HBs]. intros b (Hb & _). rewrite Hb. constructor; [lia|]. eapply Forall_impl; [|exact HleL]. intros x Hx. cbn beta in Hx. lia. }
    rewrite merged_drops by assumption. rewrite Es. destruct more.
    + destruct (swapR _ _ _ HT) as (g1 & s1 & E1 & C1 & O1 & Es1). rewrite E1. cbn [GoodR mj_cont].
      split; [eapply outside_trans; [exact O|apply outr, O1]|]. exists (2 * (length (a2 :: A) + length T))%nat. split; [lia|].
      cbn [Inv mj_scan mj_set_scan]. exists (a2 :: A), T. split; [eapply CurL_r; [exact O1| | |exact HC0]; rewrite Es1; reflexivity|]. split; [exact C1|]. split; [exact HSL|]. split; [exact HSR|]. split; [reflexivity|lia].
    + destruct HT as [-> _]. rewrite merged_nil. unfold OpMergeProofs.nurs. rewrite Er. apply ret_end; assumption.
Qed.

Lemma spooled_round (more : bool) n s g out : mj_scan s = (if more then LoopSpooledRightHasData else LoopSpooledRightEmpty) -> spooled more n s g out ->
  GoodR n (mj_round fuel lv rv ltail rtail lopt ropt s g) g out.
Proof.
  intros Es (El & Er & a & A & Bs & B2 & T & ShL & HA & Hbuf & Hit & HBs & HB2 & Hne & HT & HSR & HgT & HSL & Hle & -> & Hn).
  assert (IR : Ir (mj_right s)) by (destruct more; [exact (Hid_I _ _ _ _ _ _ _ _ HT)|apply HT]).
  assert (IL : Il (mj_left s)) by (destruct (mj_copy s); [exact (Hid_I _ _ _ _ _ _ _ _ HA)|exact (FutL_I _ _ _ (proj1 HA))]).
  assert (Er' : mj_round fuel lv rv ltail rtail lopt ropt s g = match mj_iter s with
      | t :: i => let s1 := mj_set_rc (hd 0 t) (mj_set_buf (mj_buf s) i s) in mj_ret (mj_scan s) (mj_both s1) s1 (set_regs Y (tl t) g)
      | [] => if mj_copy s then let (g1, s1) := mj_swap_left lv ltail s g in mj_spooled lv rv rtail ropt (mj_set_copy false s1) g1
          else do (lc, g1, s1) <- mj_next_left s g;
            if lc =? 0 then if lopt then mj_cont LoopEmptyLeft s1 (if g1 lv =? null32 then g1 else set_all X null32 g1) else mj_ret Empty 0 s1 g1
            else mj_spooled lv rv rtail ropt s1 g1
      end) by (unfold mj_round; rewrite Es; destruct more; reflexivity).
  rewrite Er', Hit. clear Er'. destruct B2 as [|b B2]; cbn [map app].
  - destruct (mj_copy s) eqn:Ec.
    + destruct (swapL _ _ _ HA) as (g1 & s1 & E1 & C1 & O1 & Es1). rewrite E1.
      apply (spooled_ok more n (mj_set_copy false s1) g1 g a A Bs T); auto.
      * rewrite Es1. exact Es.
      * rewrite Es1. unfold mj_lkey. cbn. exact (show_key_l _ _ _ ShL).
      * rewrite Es1. exact Hbuf.
      * destruct more; [|split; [apply HT|rewrite Es1; apply HT]]. eapply HidR_l; [exact O1| | |exact HT]; rewrite Es1; reflexivity.
      * apply outl, O1.
    + destruct HA as [HF Hk]. destruct (nextL _ _ _ HF) as (c & g1 & l1 & E & O & I1 & H1). rewrite E. destruct A as [|a2 A].
      * subst c. cbn [Z.eqb]. rewrite El at 1. cbn. unfold OpMergeProofs.nuls. rewrite El. split; [apply outl, O|]. auto.
      * destruct H1 as [H1 H2]. rewrite H1. eapply (spooled_ok more); eauto; [|apply outl, O].
        destruct more; [|exact HT]. eapply HidR_l; [exact O| | |exact HT]; reflexivity.
  - inversion HB2 as [|? ? (Hb1 & Hb2) HB2']; subst.
    assert (Oy : outside Y g (set_regs Y (tl (vals b)) g)) by apply (outside_set_regs Y).
    apply (ret_pair _ (2 * (length A + length T) + 1)).
    + eapply ShowL_r; [apply outY, Oy|reflexivity|exact ShL].
    + split; [|split; [reflexivity|exact Hb2]]. apply (set_regs_vals Y (fst b) g), HnY.
    + apply outr, outY, Oy.
    + exact IL.
    + exact IR.
    + exact Hn.
    + assert (Hsp : spooled more (2 * (length A + length T) + 1) (mj_set_scan (mj_scan s) (mj_set_rc (hd 0 (vals b)) (mj_set_buf (mj_buf s) (map vals B2) s)))
        (set_regs Y (tl (vals b)) g) (map (pr a) B2 ++ merged A (Bs ++ T))).
      { split; [exact El|]. split; [exact Er|]. exists a, A, Bs, B2, T. split; [eapply ShowL_r; [apply outY, Oy|reflexivity|exact ShL]|].
        split. { cbn [mj_copy mj_set_rc mj_set_scan mj_set_buf]. destruct (mj_copy s).
          - eapply HidL_r; [apply outY, Oy| | |exact HA]; reflexivity.
          - split; [|exact (proj2 HA)]. eapply FutL_r; [apply outY, Oy| |exact (proj1 HA)]; reflexivity. }
        split; [exact Hbuf|]. split; [reflexivity|]. split; [exact HBs|]. split; [exact HB2'|]. split; [exact Hne|].
        split. { destruct more; [|exact HT]. eapply HidR_y; [exact Oy| | |exact HT]; reflexivity. }
        split; [exact HSR|]. split; [exact HgT|]. split; [exact HSL|]. split; [exact Hle|]. split; [reflexivity|lia]. }
      unfold Inv. cbn [mj_scan mj_set_scan]. rewrite Es in *. destruct more; exact Hsp.
Qed.

Lemma round_ok n s g out : Inv n s g out -> (n < fuel)%nat -> GoodR n (mj_round fuel lv rv ltail rtail lopt ropt s g) g out.
Proof.
  intros HI Hf. destruct (mj_scan s) eqn:Es.
  all: assert (HI0 := HI); unfold Inv in HI; rewrite Es in HI; try contradiction.
  all: try (apply (spooled_round true); assumption); try (apply (spooled_round false); assumption).
  all: unfold mj_round; rewrite Es.
  - (* Empty *) destruct HI as (-> & IL & IR). apply ret_end; [apply outside_refl|assumption|assumption].
  - (* ScanHasBothSwapped *) destruct HI as (A & B & HA & HB & HSL & HSR & -> & Hn).
    destruct (swapL _ _ _ HA) as (g1 & s1 & E1 & C1 & O1 & Es1). rewrite E1.
    assert (HB1 : HidR s1 g1 B) by (eapply HidR_l; [exact O1| | |exact HB]; rewrite Es1; reflexivity).
    destruct (swapR _ _ _ HB1) as (g2 & s2 & E2 & C2 & O2 & Es2). rewrite E2.
    assert (C1' : CurL s2 g2 A) by (eapply CurL_r; [exact O2| | |exact C1]; rewrite Es2; reflexivity).
    eapply GoodR_from; [|apply le_n|apply compare_ok; [left; exact C1'|left; exact C2|exact HSL|exact HSR|lia|exact Hf]].
    eapply outside_trans; [apply outl, O1|apply outr, O2].
  - (* ScanStepLeft *) destruct HI as (A & B & HA & HB & HSL & HSR & -> & Hn). unfold mj_step_left.
    destruct (nextL _ _ _ HA) as (c & g1 & l1 & E & O & I1 & H1). rewrite E.
    assert (HB1 : CR (mj_set_lc c (mj_set_left l1 s)) g1 B) by (eapply CR_l; [exact O| | |exact HB]; reflexivity).
    destruct A as [|a A].
    + subst c. cbn [Z.eqb]. assert (El : {lopt = true} + {lopt = false}) by (destruct lopt; auto). destruct El as [El|El]; rewrite El at 1.
      * eapply GoodR_from; [|apply le_n|apply compare_ok; [right|eapply CR_l; [apply outX, set_all_outside| | |exact HB1]; reflexivity|exact HSL|exact HSR|exact Hn|exact Hf]].
        -- eapply outside_trans; [apply outl, O|apply outl, outX, set_all_outside].
        -- split; [exact El|]. split; [reflexivity|]. split; [exact I1|]. apply set_all_agree.
      * cbn. unfold OpMergeProofs.nuls. rewrite El. split; [apply outl, O|]. split; [exact I1|]. split; [|reflexivity]. destruct HB as [HB|HB]; [exact (CurR_I _ _ _ HB)|apply HB].
    + destruct H1 as [H1 H2]. rewrite H1. eapply GoodR_from; [|apply le_n|apply compare_ok; [left; exact H2|exact HB1|exact HSL|exact HSR|exact Hn|exact Hf]]. apply outl, O.
  - (* ScanStepRight *) destruct HI as (A & B & HA & HB & HSL & HSR & -> & Hn). unfold mj_step_right.
    destruct (nextR _ _ _ HB) as (c & g1 & l1 & E & O & I1 & H1). rewrite E.
    assert (HA1 : CL (mj_set_rc c (mj_set_right l1 s)) g1 A) by (eapply CL_r; [exact O| | |exact HA]; reflexivity).
    destruct B as [|b B].
    + subst c. cbn [Z.eqb]. assert (El : {ropt = true} + {ropt = false}) by (destruct ropt; auto). destruct El as [El|El]; rewrite El at 1.
      * eapply GoodR_from; [|apply le_n|apply compare_ok; [eapply CL_r; [apply outY, set_all_outside| | |exact HA1]; reflexivity|right|exact HSL|exact HSR|exact Hn|exact Hf]].
        -- eapply outside_trans; [apply outr, O|apply outr, outY, set_all_outside].
        -- split; [exact El|]. split; [reflexivity|]. split; [exact I1|]. apply set_all_agree.
      * rewrite merged_nil. unfold OpMergeProofs.nurs. rewrite El. apply (ret_end _ (mj_scan s)); [apply outr, O| |exact I1]. destruct HA as [HA|HA]; [exact (CurL_I _ _ _ HA)|apply HA].
    + destruct H1 as [H1 H2]. rewrite H1. eapply GoodR_from; [|apply le_n|apply compare_ok; [exact HA1|left; exact H2|exact HSL|exact HSR|exact Hn|exact Hf]]. apply outr, O.
  - (* ScanHasBoth *) destruct HI as (A & B & HA & HB & HSL & HSR & -> & Hn). apply compare_ok; auto; left; assumption.
  - (* LoopEmptyLeft *) apply empty_left_ok; assumption.
  - (* LoopEmptyRight *) destruct HI as (IR & A & HA & HSL & Hn & Hc). unfold mj_step_empty_right.
    destruct (nextL _ _ _ HA) as (c & g1 & l1 & E & O & I1 & H1). rewrite E. destruct A as [|a A].
    + subst c. cbn [Z.eqb]. replace out with (@nil (regs * Z)); [apply ret_end; [apply outl, O|exact I1|exact IR]|].
      destruct Hc as [(b & _ & _ & _ & ->)|(El & _ & ->)]; [reflexivity|]. unfold OpMergeProofs.nurs. destruct ropt; reflexivity.
    + destruct H1 as [H1 H2]. rewrite H1. apply (empty_right_ok n _ g1 g a A); [exact H2|exact HSL|exact IR|apply outl, O|cbn [length] in Hn; lia|].
      destruct Hc as [(b & Sh & Hc)|(Er & Hc & Eo)]; [left|right].
      * exists b. split; [|exact Hc]. eapply ShowR_l; [exact O| |exact Sh]. reflexivity.
      * split; [exact Er|]. split; [|exact Eo]. eapply agree_trans; [|exact Hc]. eapply agree_incl; [exact YW|]. apply frame_r, O.
  - (* LoopEmptyRightHasData *) destruct HI as (IR & A & b & HA & HSL & Hn & Sh & Hnb & Hall & ->).
    destruct (swapL _ _ _ HA) as (g1 & s1 & E1 & C1 & O1 & Es1). rewrite E1. destruct A as [|a A]; [contradiction|].
    apply (empty_right_ok n _ g1 g a A); [exact C1|exact HSL|rewrite Es1; exact IR|apply outl, O1|cbn [length] in Hn; lia|]. left. exists b.
    split; [|auto]. eapply ShowR_l; [exact O1| |exact Sh]. rewrite Es1. reflexivity.
  - (* LoopEqualLeftHasData *) destruct HI as (El & A & b & B & (HA & Hk) & Sh & HB & HSL & HSR & Hle & Hlt & -> & Hn).
    destruct (swapL _ _ _ HA) as (g1 & s1 & E1 & C1 & O1 & Es1). rewrite E1.
    apply equal_left_ok; auto.
    + rewrite Es1. exact Hk.
    + eapply ShowR_l; [exact O1| |exact Sh]. rewrite Es1. reflexivity.
    + eapply HidR_l; [exact O1| | |exact HB]; rewrite Es1; reflexivity.
    + apply outl, O1.
  - (* LoopEqualLeft *) destruct HI as (El & A & b & B & (HA & Hk) & Sh & HB & HSL & HSR & Hle & Hlt & -> & Hn).
    destruct (nextL _ _ _ HA) as (c & g1 & l1 & E & O & I1 & H1). rewrite E. destruct A as [|a A].
    + subst c. cbn [Z.eqb]. rewrite El at 1. cbn [GoodR mj_cont]. split; [apply outl, O|]. exists 0%nat. split; [lia|]. cbn [Inv mj_scan mj_set_scan].
      split; [cbn; unfold OpMergeProofs.nuls; rewrite El; reflexivity|]. split; [exact I1|]. exact (Hid_I _ _ _ _ _ _ _ _ HB).
    + destruct H1 as [H1 H2]. rewrite H1. apply equal_left_ok; auto.
      * eapply ShowR_l; [exact O| |exact Sh]. reflexivity.
      * eapply HidR_l; [exact O| | |exact HB]; reflexivity.
      * apply outl, O.
  - (* LoopEqualRightHasData *) destruct HI as (El & a & A & B & (HB & Hk) & Sh & HA & HSL & HSR & Hlt & Hle & -> & Hn).
    destruct (swapR _ _ _ HB) as (g1 & s1 & E1 & C1 & O1 & Es1). rewrite E1.
    apply equal_right_ok; auto.
    + rewrite Es1. exact Hk.
    + eapply ShowL_r; [exact O1| |exact Sh]. rewrite Es1. reflexivity.
    + eapply HidL_r; [exact O1| | |exact HA]; rewrite Es1; reflexivity.
    + apply outr, O1.
  - (* LoopEqualRight *) destruct HI as (El & a & A & B & (HB & Hk) & Sh & HA & HSL & HSR & Hlt & Hle & -> & Hn).
    destruct (nextR _ _ _ HB) as (c & g1 & l1 & E & O & I1 & H1). rewrite E. destruct B as [|b B].
    + subst c. cbn [Z.eqb]. rewrite El at 1. cbn [GoodR mj_cont filter map app]. split; [apply outr, O|]. exists 0%nat. split; [lia|]. cbn [Inv mj_scan mj_set_scan].
      split; [rewrite merged_nil; unfold OpMergeProofs.nurs; rewrite El; reflexivity|]. split; [exact (Hid_I _ _ _ _ _ _ _ _ HA)|exact I1].
    + destruct H1 as [H1 H2]. rewrite H1. apply equal_right_ok; auto.
      * eapply ShowL_r; [exact O| |exact Sh]. reflexivity.
      * eapply HidL_r; [exact O| | |exact HA]; reflexivity.
      * apply outr, O.
  - (* ScanStepLeftCopyRight *) destruct HI as (A & B & HA & HB & HSL & HSR & -> & Hn).
    destruct (swapR _ _ _ HB) as (g1 & s1 & E1 & C1 & O1 & Es1). rewrite E1. cbn [GoodR mj_cont]. split; [apply outr, O1|].
    exists (2 * (length A + length B))%nat. split; [lia|]. cbn [Inv mj_scan mj_set_scan]. exists A, B.
    split; [eapply FutL_r; [exact O1| |exact HA]; rewrite Es1; reflexivity|]. split; [left; exact C1|]. repeat (split; [assumption|]). split; [reflexivity|lia].
  - (* ScanStepRightCopyLeft *) destruct HI as (A & B & HA & HB & HSL & HSR & -> & Hn).
    destruct (swapL _ _ _ HA) as (g1 & s1 & E1 & C1 & O1 & Es1). rewrite E1. cbn [GoodR mj_cont]. split; [apply outl, O1|].
    exists (2 * (length A + length B))%nat. split; [lia|]. cbn [Inv mj_scan mj_set_scan]. exists A, B. split; [left; exact C1|].
    split; [eapply FutR_l; [exact O1| |exact HB]; rewrite Es1; reflexivity|]. repeat (split; [assumption|]). split; [reflexivity|lia].
Qed.

(** *** The consumer may change all other registers. *)
Lemma Inv_agree n s g h out : agree W h g -> Inv n s g out -> Inv n s h out.
Proof.
  intros H. assert (Hl : agree Wl h g) by (eapply agree_incl; [exact wl|exact H]). assert (Hr : agree Wr h g) by (eapply agree_incl; [exact wr|exact H]).
  assert (Hx : agree X h g) by (eapply agree_incl; [exact XW|exact Hl]). assert (Hy : agree Y h g) by (eapply agree_incl; [exact YW|exact Hr]).
  assert (FL : forall A, FutL s g A -> FutL s h A) by (intros A; apply Fut_agree, Hl).
  assert (FR : forall A, FutR s g A -> FutR s h A) by (intros A; apply Fut_agree, Hr).
  assert (DL : forall A, CurL s g A -> CurL s h A) by (intros A; apply Cur_agree; [exact HVl|exact HX|exact Hl]).
  assert (DR : forall A, CurR s g A -> CurR s h A) by (intros A; apply Cur_agree; [exact HVr|exact HY|exact Hr]).
  assert (EL : forall A, HidL s g A -> HidL s h A) by (intros A; apply Hid_agree; intros x Hx' _; apply Hl, Hx').
  assert (ER : forall A, HidR s g A -> HidR s h A) by (intros A; apply Hid_agree; intros x Hx' _; apply Hr, Hx').
  assert (GL : forall A, CL s g A -> CL s h A).
  { intros A [HC|(H1 & H2 & H3 & H4)]; [left; auto|right]. repeat (split; [assumption|]). eapply agree_trans; eassumption. }
  assert (GR : forall A, CR s g A -> CR s h A).
  { intros A [HC|(H1 & H2 & H3 & H4)]; [left; auto|right]. repeat (split; [assumption|]). eapply agree_trans; eassumption. }
  assert (SHL : forall a, ShowL s g a -> ShowL s h a).
  { intros a (H1 & H2). split; [eapply agree_trans; eassumption|exact H2]. }
  assert (SHR : forall a, ShowR s g a -> ShowR s h a).
  { intros a (H1 & H2). split; [eapply agree_trans; eassumption|exact H2]. }
  assert (NL : agree X g nullrow -> agree X h nullrow) by (intros Q; eapply agree_trans; eassumption).
  assert (NR : agree Y g nullrow -> agree Y h nullrow) by (intros Q; eapply agree_trans; eassumption).
  assert (Kl : h lv = g lv) by (apply Hx; left; reflexivity). assert (Kr : h rv = g rv) by (apply Hy; left; reflexivity).
  unfold Inv. destruct (mj_scan s); try contradiction.
  - auto.
  - intros (A & B & H1 & H2 & H3). exists A, B. auto.
  - intros (A & B & H1 & H2 & H3). exists A, B. auto.
  - intros (A & B & H1 & H2 & H3). exists A, B. auto.
  - intros (A & B & H1 & H2 & H3). exists A, B. auto.
  - intros (H1 & B & H2 & H3 & H4 & H5). split; [exact H1|]. exists B. split; [auto|]. split; [exact H3|]. split; [exact H4|].
    destruct H5 as [(a & H5 & H6)|(H5 & H6 & H7)]; [left; exists a; auto|right; auto].
  - intros (H1 & B & H2 & H3 & H4 & H5). split; [exact H1|]. exists B. split; [auto|]. split; [exact H3|]. split; [exact H4|].
    destruct H5 as [(a & H5 & H6)|(H5 & H6 & H7)]; [left; exists a; auto|right; auto].
  - intros (H1 & A & b & H2 & H3 & H4 & H5 & H6). split; [exact H1|]. exists A, b. auto 10.
  - intros (H1 & A & b & B & (H2 & H3) & H4 & H5 & H6). split; [exact H1|]. exists A, b, B. rewrite Kl. auto 10.
  - intros (H1 & A & b & B & (H2 & H3) & H4 & H5 & H6). split; [exact H1|]. exists A, b, B. auto 10.
  - intros (H1 & A & b & B & (H2 & H3) & H4 & H5 & H6). split; [exact H1|]. exists A, b, B. rewrite Kr. auto 10.
  - intros (H1 & A & b & B & (H2 & H3) & H4 & H5 & H6). split; [exact H1|]. exists A, b, B. auto 10.
  - intros (H1 & H2 & a & A & Bs & B2 & T & H3 & H4 & H5 & H6 & H7 & H8 & H9 & H10). split; [exact H1|]. split; [exact H2|]. exists a, A, Bs, B2, T.
    split; [auto|]. split; [destruct (mj_copy s); [auto|split; [apply FL|]; apply H4]|]. auto 12.
  - intros (H1 & H2 & a & A & Bs & B2 & T & H3 & H4 & H5 & H6 & H7 & H8 & H9 & H10 & H11). split; [exact H1|]. split; [exact H2|]. exists a, A, Bs, B2, T.
    split; [auto|]. split; [destruct (mj_copy s); [auto|split; [apply FL|]; apply H4]|]. auto 14.
  - intros (A & B & H1 & H2 & H3). exists A, B. auto.
  - intros (A & B & H1 & H2 & H3). exists A, B. auto.
Qed.
Lemma loop_ok : forall n k s g out, (n < k)%nat -> (n < fuel)%nat -> Inv n s g out ->
  exists r, mj_loop fuel lv rv ltail rtail lopt ropt k s g = Some r /\ Good n r g out.
Proof.
  induction n as [n IH] using lt_wf_ind. intros k s g out Hk Hf HI. destruct k as [|k]; [lia|]. cbn [mj_loop].
  assert (HR := round_ok n s g out HI Hf). destruct (mj_round fuel lv rv ltail rtail lopt ropt s g) as [[[g1 s1]|r]|]; [| |contradiction].
  - destruct HR as (O & n' & Hn & HI'). destruct (IH n' Hn k s1 g1 out) as (r & E & HG); [lia|lia|exact HI'|].
    exists r. split; [exact E|]. exact (GoodR_from n' n (Some (inr r)) g1 g out O ltac:(lia) HG).
  - exists r. auto.
Qed.

Definition the_join s : oper := obj (mj_first fuel lv rv ltail rtail lopt ropt) (mj_next fuel lv rv ltail rtail lopt ropt) s.
Definition mj_ok (o : oper) : Prop := exists s, o = the_join s /\ Il (mj_left s) /\ Ir (mj_right s).
Lemma Good_got n r g out : (n < fuel)%nat -> Good n r g out ->
  Got mj_ok V W (wrap (mj_first fuel lv rv ltail rtail lopt ropt) (mj_next fuel lv rv ltail rtail lopt ropt) (Some r)) g out.
Proof.
  intros Hf. revert n r g Hf. induction out as [|[v c] out IH]; intros n [[c' g'] s'] g Hf HG; cbn [Good] in HG; destruct HG as (O & IL & IR & HG).
  - subst c'. cbn. exists g', (the_join s'). split; [reflexivity|]. split; [exact O|]. exists s'. auto.
  - cbn [fst snd] in HG. destruct HG as (-> & Hc & Ha & n' & Hn & HI). cbn [Got wrap]. split; [exact Hc|]. exists g', (the_join s'). split; [reflexivity|].
    split; [exact Ha|]. split; [exact O|]. split; [exists s'; auto|]. rewrite Rows_Got. intros h Hh. unfold the_join. rewrite obj_next.
    destruct (loop_ok n' fuel s' h out) as (r & E & HG'); [lia|lia|eapply Inv_agree; eassumption|].
    unfold mj_next. rewrite E. apply (IH n' r h); [lia|exact HG'].
Qed.
Variables (D : list nat) (fl fr : regs -> list (regs * Z)).
Hypothesis HD : disjoint D Wl.
Lemma first_ok v s : Il (mj_left s) -> Ir (mj_right s) ->
  Rows Il Vl Wl (o_first (mj_left s)) (fun g => agree D g v) (fl v) ->
  Rows Ir Vr Wr (o_first (mj_right s)) (fun g => agree D g v) (fr v) -> SL (fl v) -> SR (fr v) -> (2 * (length (fl v) + length (fr v)) + 1 < fuel)%nat ->
  Rows mj_ok V W (o_first (the_join s)) (fun g => agree D g v) (merged (fl v) (fr v)).
Proof.
  intros IL IR RL R HSL HSR Hf. rewrite Rows_Got. intros g Hg. unfold the_join. rewrite obj_first.
  set (n := (2 * (length (fl v) + length (fr v)) + 1)%nat) in *.
  cut (exists r, mj_first fuel lv rv ltail rtail lopt ropt s g = Some r /\ Good n r g (merged (fl v) (fr v))).
  { intros (r & E & HG). rewrite E. apply (Good_got n r g); assumption. }
  rewrite Rows_Got in RL. specialize (RL g Hg). unfold mj_first.
  assert (RR : forall g1, outside Wl g g1 -> Got Ir Vr Wr (o_first (mj_right s) g1) g1 (fr v)).
  { intros g1 O1. rewrite Rows_Got in R. apply R. intros x Hx. rewrite <- (O1 x (HD x Hx)). apply Hg, Hx. }
  destruct (fl v) as [|[va ca] A] eqn:EL.
  - destruct RL as (g1 & l1 & E1 & O1 & I1). rewrite E1. cbn [Z.eqb andb]. destruct (negb lopt) eqn:El.
    + eexists. split; [reflexivity|]. cbn. unfold OpMergeProofs.nuls. apply negb_true_iff in El. rewrite El. split; [apply outl, O1|]. auto.
    + apply negb_false_iff in El. specialize (RR g1 O1). destruct (fr v) as [|[vb cb] B].
      * destruct RR as (g2 & r1 & E2 & O2 & I2). rewrite E2. cbn [Z.eqb]. eexists. split; [reflexivity|]. cbn. unfold OpMergeProofs.nuls. rewrite El. cbn.
        split; [eapply outside_trans; [apply outl, O1|apply outr, O2]|]. auto.
      * destruct RR as (Hc & g2 & r1 & E2 & A2 & O2 & I2 & R2). rewrite E2. destruct (Z.eqb_spec cb 0); [lia|]. cbn iota beta. eexists. split; [reflexivity|].
        unfold OpMergeProofs.merged, OpMergeProofs.nuls. rewrite El. cbn [map].
        refine (ret_right n (2 * length B + 1) LoopEmptyLeft (mj_set_rc cb (mj_set_right r1 (mj_set_lc 0 (mj_set_left l1 s)))) _ g (vb, cb) _ _ (set_all_agree X _ _) _ I1 I2 _ _).
        -- split; [|split; [reflexivity|exact Hc]]. eapply agree_trans; [eapply agree_incl; [exact YW|]; apply frame_r, outX, set_all_outside|]. eapply agree_incl; [exact HY|exact A2].
        -- eapply outside_trans; [apply outl, O1|]. eapply outside_trans; [apply outr, O2|]. apply outl, outX, set_all_outside.
        -- unfold n. cbn [length]. lia.
        -- cbn [Inv mj_scan mj_set_scan]. split; [exact I1|]. exists B. split.
           { eapply FutR_l with (s := mj_set_right r1 s); [apply outX, set_all_outside|reflexivity|]. split; [exact I2|exact R2]. }
           destruct (SR_cons _ _ HSR) as (HSR' & _). split; [exact HSR'|]. split; [lia|]. right. split; [exact El|]. split; [apply set_all_agree|]. unfold OpMergeProofs.nuls. rewrite El. reflexivity.
  - destruct RL as (Hca & g1 & l1 & E1 & A1 & O1 & I1 & R1). rewrite E1. destruct (Z.eqb_spec ca 0); [lia|]. cbn [andb]. specialize (RR g1 O1).
    destruct (fr v) as [|[vb cb] B] eqn:EB.
    + destruct RR as (g2 & r1 & E2 & O2 & I2). rewrite E2. cbn [Z.eqb]. rewrite merged_nil. unfold OpMergeProofs.nurs. assert (Er : {ropt = true} + {ropt = false}) by (destruct ropt; auto). destruct Er as [Er|Er]; rewrite Er.
      * eexists. split; [reflexivity|]. cbn [map].
        refine (ret_left n (2 * length A + 1) LoopEmptyRight (mj_set_rc 0 (mj_set_right r1 (mj_set_lc ca (mj_set_left l1 s)))) _ g (va, ca) _ _ (set_all_agree Y _ _) _ I1 I2 _ _).
        -- split; [|split; [reflexivity|exact Hca]]. eapply agree_trans; [eapply agree_incl; [exact XW|]; apply frame_l, outY, set_all_outside|].
           eapply agree_trans; [eapply agree_incl; [exact XW|]; apply frame_l, O2|]. eapply agree_incl; [exact HX|exact A1].
        -- eapply outside_trans; [apply outl, O1|]. eapply outside_trans; [apply outr, O2|]. apply outr, outY, set_all_outside.
        -- unfold n. cbn [length]. lia.
        -- cbn [Inv mj_scan mj_set_scan]. split; [exact I2|]. exists A. split.
           { eapply FutL_r with (s := mj_set_left l1 s) (g := g1); [eapply outside_trans; [exact O2|apply outY, set_all_outside]|reflexivity|]. split; [exact I1|exact R1]. }
           destruct (SL_cons _ _ HSL) as (HSL' & _). split; [exact HSL'|]. split; [lia|]. right. split; [exact Er|]. split; [apply set_all_agree|]. unfold OpMergeProofs.nurs. rewrite Er. reflexivity.
      * eexists. split; [reflexivity|]. cbn. split; [eapply outside_trans; [apply outl, O1|apply outr, O2]|]. auto.
    + destruct RR as (Hc & g2 & r1 & E2 & A2 & O2 & I2 & R2). rewrite E2. destruct (Z.eqb_spec cb 0); [lia|]. unfold mj_next.
      destruct (loop_ok n fuel (mj_set_scan ScanHasBoth (mj_set_rc cb (mj_set_right r1 (mj_set_lc ca (mj_set_left l1 s))))) g2 (merged ((va, ca) :: A) ((vb, cb) :: B))) as (r & E & HG).
      { exact Hf. } { exact Hf. }
      { cbn [Inv mj_scan mj_set_scan]. exists ((va, ca) :: A), ((vb, cb) :: B). split.
        - eapply CurL_r with (s := mj_set_lc ca (mj_set_left l1 s)); [exact O2|reflexivity|reflexivity|]. split; [split; [exact I1|exact R1]|].
          split; [eapply agree_incl; [exact HX|exact A1]|]. split; [reflexivity|exact Hca].
        - split; [|split; [exact HSL|split; [exact HSR|split; [reflexivity|unfold n; lia]]]]. split; [split; [exact I2|exact R2]|].
          split; [eapply agree_incl; [exact HY|exact A2]|]. split; [reflexivity|exact Hc]. }
      exists r. split; [exact E|]. refine (GoodR_from n n (Some (inr r)) g2 g _ _ (le_n _) HG). eapply outside_trans; [apply outl, O1|apply outr, O2].
Qed.
End Mj.
