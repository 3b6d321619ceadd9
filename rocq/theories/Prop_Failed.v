(** C56: what a failed merge leaves in the message. *)
From Verif Require Import Base BaseProofs Wire WireProofs Unknown Value Descr Fields Codec DescrOk DescrProofs
  FieldsProofs MergeProofs RecordProofs MergeRules FailSpec FailProofs ExampleSchema.
Open Scope list_scope.
Open Scope N_scope.

(** Exactly: the records before the failing one are merged, the failing record
    leaves what [left_msg] (FailSpec.v) says, nothing else changes. *)
Theorem C56_failed_merge t m b e m' :
  wf t -> ok_msg t m = true -> bytes_ok b -> msg_merge t m b = DErr e m' -> left_msg t 100 m b m'.
Proof. intros Hwf. exact (merge_fails t Hwf m b e m'). Qed.
Print Assumptions C56_failed_merge.

(** In terms of calls: the input splits in two, the first part merges on its
    own into some [m1], and the final message is [m1], or differs from it in one
    declared field and the oneof of that field only. *)
Theorem C56_prefix_kept t m b e m' :
  wf t -> ok_msg t m = true -> bytes_ok b -> msg_merge t m b = DErr e m' ->
  exists a c m1, b = a ++ c /\ msg_merge t m a = DOk m1 [] /\ dm_desc m' = dm_desc m /\
    (m' = m1 \/
     exists n w p f, decode_key c = Ok (n, w, p) /\ find_desc t (dm_desc m) n = Some f /\
       (forall g, fd_number g <> fd_number f -> ~ sibling f (fd_number g) ->
          has_field t m' g = has_field t m1 g /\ get_field_value t m' g = get_field_value t m1 g) /\
       (forall g, sibling f (fd_number g) -> has_field t m' g = false)).
Proof.
  intros Hwf Hm Hb H. pose proof (merge_fails t Hwf m b e m' Hm Hb H) as L.
  assert (K : forall cs c m1, b = concat cs ++ c -> runs (merge_field 100 t) m cs m1 ->
    msg_merge t m (concat cs) = DOk m1 [] /\ dm_desc m1 = dm_desc m).
  { intros cs c m1 E Hr. rewrite E in Hb. apply bytes_ok_app in Hb. destruct Hb as [Hb _].
    assert (Ha : merge_at 100 t m (concat cs) = DOk m1 []) by (apply merge_at_runs; eauto).
    split; [rewrite merge_at_100; auto|].
    refine (proj2 (merge_at_ok t Hwf 100 m (concat cs) m1 [] _ Hm Hb Ha)). lia. }
  inversion L as [? ? cs c m1 e0 Hr Hk Hc Hm0 Eb|? ? cs c m1 n w p e0 Hr Hk Hf Hu Hc Hm0 Eb
                 |? ? cs c m1 n w p f ? Hr Hk Hf Hv Hu Hs Hc Hm0 Eb]; subst.
  - destruct (K _ _ _ eq_refl Hr) as [K1 K2]. exists (concat cs), c, m'. auto 6.
  - destruct (K _ _ _ eq_refl Hr) as [K1 K2]. exists (concat cs), c, m'. auto 6.
  - destruct (K _ _ _ eq_refl Hr) as [K1 K2]. exists (concat cs), c, m1. split; [reflexivity|]. split; [exact K1|].
    destruct Hu as (Hd & _ & Hu). split; [congruence|]. right. exists n, w, p, f.
    split; [exact Hk|]. split; [rewrite <- K2; exact Hf|]. split; [exact Hu|exact Hs].
Qed.
Print Assumptions C56_prefix_kept.

(** Merging is not all or nothing: a record that could not be read at all has
    already cleared the other member of its oneof. *)
Theorem C56_not_atomic_refuted :
  exists t m b e m' g, wf t /\ ok_msg t m = true /\ bytes_ok b /\ msg_merge t m b = DErr e m' /\
    has_field t m g = true /\ has_field t m' g = false.
Proof.
  (* y is set; the record of x (5) is cut off after its key *)
  exists ex, (DM 0 [(6, SVal (VString [97]))]), [40], EVarint, (DM 0 [(5, SVal (VU32 0))]), (ex_f 6).
  split; [exact ex_wf|]. split; [vm_compute; reflexivity|]. split; [repeat constructor; lia|].
  split; [vm_compute; reflexivity|]. split; vm_compute; reflexivity.
Qed.
Print Assumptions C56_not_atomic_refuted.

(** a = 1, then p += [1; -1] and a cut-off third element: the first two are
    kept; and inside child: a is merged, s is emptied by the cut-off record *)
Example C56_example :
  exists e e',
  msg_merge ex (new_msg 0) [8; 1; 26; 3; 2; 1; 128] =
    DErr e (DM 0 [(1, SVal (VI32 1)); (3, SVal (VList [VI32 1; VI32 (-1)]))]) /\
  msg_merge ex (DM 0 [(7, SVal (VMessage (DM 0 [(2, SVal (VString [97]))])))]) [58; 4; 8; 5; 18; 9] =
    DErr e' (DM 0 [(7, SVal (VMessage (DM 0 [(1, SVal (VI32 5)); (2, SVal (VString []))])))]).
Proof. eexists. eexists. split; vm_compute; reflexivity. Qed.
