(** C16, C46: growable files and table storage. *)
From Verif Require Import ItrProofs TableSpec TableProofs FileModel FileSpec FileProofs.
Local Open Scope Z_scope.
Ltac Zify.zify_post_hook ::= Z.div_mod_to_equations.

(** ** C46 *)

(** C46.  From an existing file with any content, or from a new file, every sequence of valid
    calls succeeds (never touches memory outside of the mapping) and has exactly the specified
    effect on the content, whatever the growth constants. *)
Theorem C46_file : forall small os content, fops_valid (zlen content) os ->
  exists f, fd_run small os (fd_open content) = Some f /\ fsteps content os (fd_content f) /\
    0 <= f_size f <= zlen (f_buf f).
Proof.
  intros small os c Hv. destruct (fd_run_ok small os (fd_open c)) as (f & E & H1 & H2); auto.
  { unfold fd_ok, fd_open. cbn. pose proof (zlen_nonneg c). lia. }
  exists f. split; auto. split; [|exact H1]. replace c with (fd_content (fd_open c)); auto.
  unfold fd_content, fd_open, zlen. cbn. rewrite Nat2Z.id. apply firstn_all.
Qed.
Print Assumptions C46_file.

Theorem C46_new_file : forall small init os, 0 <= init -> fops_valid 0 os ->
  exists f, fd_run small os (fd_new init) = Some f /\ fsteps [] os (fd_content f) /\
    0 <= f_size f <= zlen (f_buf f).
Proof.
  intros small init os Hi Hv. destruct (fd_run_ok small os (fd_new init)) as (f & E & H1 & H2); auto.
  { unfold fd_ok, fd_new. cbn. rewrite zlen_repeat. lia. }
  exists f. auto.
Qed.
Print Assumptions C46_new_file.

(** C46 fails for variable-length integers from 2^56 on: room is made for 8 bytes only, so in
    a new file of which all but 8 bytes are used the write goes beyond the mapping. *)
Theorem C46_vlong2_refuted : forall small init, 8 <= init ->
  exists os, fd_run small os (fd_new init) = None /\
    os = [FAppend (repeat 0 (Z.to_nat (init - 8))); FVLong2 (2 ^ 60)].
Proof.
  intros small init Hi. eexists. split; [|reflexivity].
  assert (Hb : zlen (repeat 0 (Z.to_nat (init - 8))) = init - 8) by (rewrite zlen_repeat; lia).
  assert (E : fd_append small (repeat 0 (Z.to_nat (init - 8))) (fd_new init) =
              Some (mkFd (repeat 0 (Z.to_nat init)) (init - 8))).
  { unfold fd_append, fd_put, fd_room, fd_new. cbn [f_buf f_size]. rewrite Hb, zlen_repeat.
    destruct (Z.ltb_spec (Z.of_nat (Z.to_nat init)) (init - 8 + 0)); [lia|]. cbn [f_buf f_size].
    replace (repeat 0 (Z.to_nat init)) with ([] ++ repeat 0 (Z.to_nat (init - 8)) ++ repeat 0 8).
    - rewrite wr_spec by auto. reflexivity.
    - cbn [app]. rewrite <- repeat_app. f_equal. lia. }
  cbn [fd_run fd_step]. rewrite E. unfold fd_appendVLong2, fd_put, fd_room. cbn [f_buf f_size]. rewrite zlen_repeat.
  destruct (Z.ltb_spec (Z.of_nat (Z.to_nat init)) (8 + (init - 8))); [lia|]. cbn [f_buf f_size].
  unfold wr. replace (zlen (enc_vlong2 (2 ^ 60))) with 9 by reflexivity. rewrite zlen_repeat.
  destruct (Z.leb_spec 0 (init - 8)); [|lia].
  destruct (Z.leb_spec (init - 8 + 9) (Z.of_nat (Z.to_nat init))); [lia|]. reflexivity.
Qed.
Print Assumptions C46_vlong2_refuted.

Example C46_case : fops_valid 3 [FAppend [4; 5]; FShift 1 2; FOverwrite 1 [9; 8]; FVLong2 300; FField 5 7; FReserve 2] /\
  (do f <- fd_run 4 [FAppend [4; 5]; FShift 1 2; FOverwrite 1 [9; 8]; FVLong2 300] (fd_open [1; 2; 3]);
   Some (fd_content f)) = Some [1; 9; 8; 2; 3; 4; 5; 172; 2].
Proof. split; [cbn; lia|reflexivity]. Qed.

(** ** C16 *)

(** C16.  Whatever the maximal file size and the number of marks kept in memory: if any number
    of tables are stored and the storage is then closed, opening a table by the file and the
    mark returned for it gives exactly the bytes stored for it, provided the tables are not
    empty and their total size is less than 2^40 bytes (the positions have 5 bytes). *)
Theorem C16_get_table : forall maxsize maxmarks tabs t cs, 0 <= maxsize ->
  (forall k s b, In (k, s, b) tabs -> b <> []) -> zlen (flat_map snd tabs) < 2 ^ 40 ->
  ts_store maxsize maxmarks tabs ts_new = Some (t, cs) ->
  exists t', ts_stopInsert t = Some t' /\
    Forall2 (fun tab c => let '(_, bytes) := tab in let '(file, mark) := c in
               exists s e, ts_getTable t' file mark = Some (s, e) /\ e - s = zlen bytes /\
                 contains (t_file t' file) s bytes) tabs cs.
Proof.
  intros max mm tabs t cs Hmax Hne Hsz E.
  assert (Hlen : zlen tabs <= zlen (flat_map snd tabs)).
  { clear - Hne. induction tabs as [|[[k s] b] tabs IH]; [unfold zlen; cbn; lia|].
    cbn [flat_map snd]. rewrite zlen_app. assert (b <> []) by (apply (Hne k s b); cbn; auto).
    assert (1 <= zlen b) by (unfold zlen; destruct b; cbn; [congruence|lia]).
    assert (zlen tabs <= zlen (flat_map snd tabs)) by (apply IH; intros; eapply Hne; cbn; eauto).
    unfold zlen in *. cbn [length]. lia. }
  assert (H0 : forall f, zlen ((fun _ : nat => @nil table_t) f) + zlen tabs < 2 ^ 62) by (intros; unfold zlen in *; cbn; lia).
  destruct (ts_store_ok max mm tabs Hmax ts_new _ t cs ts_new_inv H0 E) as (G & HI & _ & HB & HF).
  assert (HG : forall f, zlen (G f) < 2 ^ 63).
  { intros f. specialize (H0 f). destruct (HB f) as [H _]. cbn beta in *. unfold zlen in *. cbn in *. lia. }
  destruct (stopInsert_ok t G HI HG) as (t' & E' & Ef & HX). exists t'. split; auto.
  eapply Forall2_weaken_In; [|exact HF]. intros [[k s] b] [file mark] Hin _ (i & Hm & Hi). cbn [fst snd] in *. subst mark.
  destruct (getTable_ok t' file (G file) i k s b (HX file)) as (p & E1 & E2); auto.
  - rewrite Ef. apply HI.
  - eapply Hne; eauto.
  - destruct (HB file) as [_ H]. unfold bytes_of, fcont at 2 3 in H. unfold zlen in *. cbn in H. lia.
  - exists p, (p + zlen b). rewrite E1. split; auto. split; auto. lia.
Qed.
Print Assumptions C16_get_table.

(** C16.  Storing fails only when the file numbers are used up. *)
Theorem C16_store_succeeds : forall maxsize maxmarks tabs, 0 <= maxsize -> zlen tabs < 4096 ->
  exists t cs, ts_store maxsize maxmarks tabs ts_new = Some (t, cs).
Proof.
  intros max mm tabs Hmax HL. apply (ts_store_some max mm tabs Hmax ts_new (fun _ => []) ts_new_inv).
  - intros f. unfold zlen in *. cbn. lia.
  - cbn [t_last ts_new]. assert (E : Z.of_nat MAX_N_FILES = 4096) by reflexivity. unfold zlen in HL. lia.
Qed.
Print Assumptions C16_store_succeeds.

(** Tables over several files, with marks written out early. *)
Example C16_case :
  (do (t, cs) <- ts_store 3 1 [(7, 0, [1; 2]); (8, 0, [3; 4; 5]); (9, 0, [6]); (10, 0, [7; 8])] ts_new;
   do t' <- ts_stopInsert t;
   Some (cs, map (fun c => ts_getTable t' (fst c) (snd c)) cs, t_file t' 0%nat, t_file t' 1%nat))
  = Some ([(0%nat, 0); (0%nat, 1); (1%nat, 0); (1%nat, 1)],
          [Some (0, 2); Some (2, 5); Some (0, 1); Some (1, 3)], [1; 2; 3; 4; 5], [6; 7; 8]).
Proof. vm_compute. reflexivity. Qed.

(** An empty table can be the last one of a file, but a file with only empty tables is removed
    and its tables cannot be opened. *)
Theorem C16_empty_refuted :
  (do (t, cs) <- ts_store 3 1 [(7, 0, [])] ts_new; do t' <- ts_stopInsert t;
   Some (cs, map (fun c => ts_getTable t' (fst c) (snd c)) cs)) = Some ([(0%nat, 0)], [None]).
Proof. vm_compute. reflexivity. Qed.
Print Assumptions C16_empty_refuted.
