(** The two threads of a string buffer. *)
From Verif Require Import StrCloseModel.

Definition main_has (p : mpc) : bool := match p with PTest | PWait | PSet | PUnlock | CTest | CWait | CUnlock => true | _ => false end.
Definition worker_has (p : wpc) : bool := match p with WTest | WWait | WTake | WUnlock => true | _ => false end.
Definition handing (p : mpc) : bool := match p with PLock | PTest | PWait | PSleep | PSet => true | _ => false end.
Definition closing (p : mpc) : bool := match p with CLock | CTest | CWait | CSleep | CUnlock | CSet | CNotify | TLock | TTest | TWait | TSleep | Closed => true | _ => false end.
(** The end was announced. *)
Definition ending (p : wpc) : bool := match p with WFlag | WEnd | Gone => true | _ => false end.
Definition taken (p : wpc) : bool := match p with WUnlock | WNotify => true | _ => false end.
Definition null (b : slot) : bool := match b with Null => true | _ => false end.
Definition fin (b : slot) : bool := match b with Finish => true | _ => false end.
Definition zero (n : nat) : bool := match n with O => true | _ => false end.

Definition inv (s : st) : bool :=
  match mx s with None => negb (main_has (m s)) && negb (worker_has (w s)) | Some Main => main_has (m s) && negb (worker_has (w s)) | Some Worker => negb (main_has (m s)) && worker_has (w s) end
  && implb (handing (m s)) (negb (zero (todo s))) && implb (closing (m s)) (zero (todo s))
  && implb (negb (late (m s))) (negb (fin (buf s)) && negb (ending (w s)) && negb (taken (w s) && fin (got s)))
  && implb (late (m s)) (match buf s with Block => false | _ => true end)
  && implb (taken (w s) || match w s with WWork => true | _ => false end) (negb (null (got s)))
  && implb (match w s with WTake => true | _ => false end) (negb (null (buf s)))
  && implb (match m s with PSet | CUnlock | CSet => true | _ => false end) (null (buf s))
  && implb (match m s with PWait | CWait => true | _ => false end) (negb (null (buf s)))
  && implb (match w s with WWait => true | _ => false end) (null (buf s) || late (m s))
  && implb (match w s with WSleep => true | _ => false end) (null (buf s) || late (m s) || match m s with PUnlock | PNotify => true | _ => false end)
  && implb (match m s with PSleep | CSleep => true | _ => false end) (negb (null (buf s)) || taken (w s))
  && implb (ending (w s)) (fin (got s)) && implb (taken (w s) && fin (got s)) (null (buf s)) && implb (ending (w s)) (null (buf s))
  && implb (match w s with WWork => true | _ => false end) (negb (fin (got s)))
  && Bool.eqb (running s) (match w s with WEnd | Gone => false | _ => true end)
  && implb (match m s with Closed => true | _ => false end) (negb (running s))
  && Bool.eqb (tx s) (match m s with TTest | TWait | Closed => true | _ => false end).

Ltac go H := repeat (first [ discriminate H | match type of H with context [match ?x with _ => _ end] => is_var x; destruct x; cbn in H end ]).

Lemma inv_start k : inv (start k) = true.
Proof. destruct k; reflexivity. Qed.

Lemma inv_step s s' : inv s = true -> step s s' -> inv s' = true.
Proof.
  intros H St. destruct St as [s E|s E|s E|s E|s E|s E|s E|s E|s E|s E|s E|s E|s E|s E|s E|s E|s E|s E|s E|s E|s E|s E|s E|s E];
  destruct s as [x t b g r p q n c]; cbn in E; try (cbn in H0); subst;
  unfold inv in *; cbn in *.
  all: try (destruct q; cbn in *; try discriminate).
  all: try (destruct p; cbn in *; try discriminate).
  all: try (destruct x as [[|]|]; cbn in *; try discriminate).
  all: try (destruct b; cbn in *; try discriminate).
  all: try (destruct g; cbn in *; try discriminate).
  all: try (destruct n as [|[|n]]; cbn in *; try discriminate).
  all: try (destruct r; cbn in *; try discriminate).
  all: try (destruct t; cbn in *; try discriminate).
  all: try reflexivity.
Qed.

Lemma inv_reach k s : reach k s -> inv s = true.
Proof. induction 1; [apply inv_start|eapply inv_step; eauto]. Qed.

(** Every block is still to come, in the slot, being compressed, or in the file. *)
Definition count (s : st) : nat :=
  todo s + (match buf s with Block => 1 | _ => 0 end) + (match w s with WUnlock | WNotify | WWork => match got s with Block => 1 | _ => 0 end | _ => 0 end) + blocks s.

Lemma count_step s s' : inv s = true -> step s s' -> count s' = count s.
Proof.
  intros H St. destruct St as [s E|s E|s E|s E|s E|s E|s E|s E|s E|s E|s E|s E|s E|s E|s E|s E|s E|s E|s E|s E|s E|s E|s E|s E];
  destruct s as [x t b g r p q n c]; cbn in E; subst; unfold count, inv in *; cbn in *; try lia.
  all: try (destruct q; cbn in *; try discriminate; try lia).
  all: try (destruct p; cbn in *; try discriminate; try lia).
  all: try (destruct x as [[|]|]; cbn in *; try discriminate; try lia).
  all: try (destruct b; cbn in *; try discriminate; try lia).
  all: try (destruct g; cbn in *; try discriminate; try lia).
  all: try (destruct n as [|n]; cbn in *; try discriminate; try lia).
Qed.

Lemma count_reach k s : reach k s -> count s = k.
Proof. induction 1; [destruct k; unfold count; cbn; lia|]. rewrite <- IHreach. apply count_step; auto. eapply inv_reach; eauto. Qed.

(** Before the end is announced one of the threads can go on. *)
Lemma early_moves s : inv s = true -> late (m s) = false -> exists s', step s s'.
Proof.
  intros H L. destruct (m s) eqn:Em; try discriminate L; clear L;
    try (eexists; first [apply s_ptest; exact Em | apply s_pwait; exact Em | apply s_pset; exact Em | apply s_punlock; exact Em | apply s_pnotify; exact Em | apply s_ctest; exact Em | apply s_cwait; exact Em | apply s_cunlock; exact Em | apply s_cset; exact Em]).
  all: destruct (w s) eqn:Ew; try (eexists; first [apply s_wtest; exact Ew | apply s_wwait; exact Ew | apply s_wtake; exact Ew | apply s_wunlock; exact Ew | apply s_wnotify; exact Ew | apply s_wwork; exact Ew | apply s_wflag; exact Ew | apply s_wend; exact Ew]).
  all: destruct s as [x t b g r p q n c]; unfold inv in H; cbn in *; subst; cbn in H; destruct x as [[|]|]; try discriminate H.
  all: try (eexists; apply s_plock; reflexivity). all: try (eexists; apply s_clock; reflexivity). all: try (eexists; apply s_wlock; reflexivity).
  all: cbn in H; destruct b; cbn in H; destruct n; cbn in H; try discriminate H.
Qed.
