(** What a failed add does to the extension lists of messages, exactly (C22). *)
From Coq Require Import String.
From Verif Require Import Base BaseProofs Value Descr Proto Build BuildFrame BuildInv BuildResolve BuildSafe PoolFacts DeclSpec ExampleFiles Prop_Pool.
From Coq Require Import List Lia Arith.
Import ListNotations.
Local Open Scope list_scope.

(** every extension that a message of the pool lists has an index below the
    number of messages *)
Definition listed_low (p : pool) : Prop :=
  forall i m x, nth_error (p_messages p) i = Some m -> In x (m_exts m) -> (x < length (p_messages p))%nat.

Lemma rejected_frame X fuel p fs p' es : Inv X p -> build_files X fuel p fs = Rejected p' es ->
  exists q, frame (dedup p fs) (offsets_of p) p q /\ p' = rollback (offsets_of p) q.
Proof.
  intros I H. apply build_rejected in H. destruct H as (v & H & _ & _ & ->). exists (v_pool v). split; [|reflexivity].
  exact (build_frame _ _ _ _ _ (ba_fnames _ (Inv_base _ _ I)) (dedup_unknown _ _) H).
Qed.

(** The rule: of the extensions a message listed, and those the rejected files
    added (whose indices start at the number of extensions), it lists in the end
    those with an index below the number of messages, in the same order. *)
Theorem C22_extension_lists X fuel p fs p' es : search_ok X -> reachable X p -> build_files X fuel p fs = Rejected p' es ->
  forall i m m', nth_error (p_messages p) i = Some m -> nth_error (p_messages p') i = Some m' ->
  exists added, Forall (fun x => (length (p_exts p) <= x)%nat) added /\
    m_exts m' = filter (fun x => (x <? length (p_messages p))%nat) (m_exts m ++ added).
Proof.
  intros SO R H i m m' Hm Hm'. destruct (rejected_frame X fuel p fs p' es (reachable_Inv _ _ SO R) H) as (q & F & ->).
  destruct (rollback_exts _ _ _ _ _ F Hm') as (m0 & xs & E & A & B). rewrite Hm in E. apply Some_inj in E. subst m0. exists xs. auto.
Qed.
Print Assumptions C22_extension_lists.

(** So an extension of the pool stays listed where it was if and only if its
    index is below the number of messages, and nothing else of the pool's own is
    listed; and what is left of the rejected files has an index from the number
    of extensions up to the number of messages. *)
Theorem C22_kept_and_left X fuel p fs p' es : search_ok X -> reachable X p -> build_files X fuel p fs = Rejected p' es ->
  forall i m m', nth_error (p_messages p) i = Some m -> nth_error (p_messages p') i = Some m' ->
  (forall x, (x < length (p_exts p))%nat -> (In x (m_exts m') <-> In x (m_exts m) /\ (x < length (p_messages p))%nat)) /\
  (forall x, In x (m_exts m') -> (x < length (p_messages p))%nat).
Proof.
  intros SO R H i m m' Hm Hm'. destruct (C22_extension_lists X fuel p fs p' es SO R H i m m' Hm Hm') as (xs & A & E). rewrite E. rewrite Forall_forall in A. split.
  - intros x Hx. rewrite filter_In, in_app_iff, Nat.ltb_lt. split; [|tauto]. intros [[?|Hin] ?]; [tauto|]. specialize (A x Hin). lia.
  - intros x Hin. apply filter_In in Hin. apply Nat.ltb_lt. exact (proj2 Hin).
Qed.
Print Assumptions C22_kept_and_left.

Lemma messages_ext : forall (l l' : list message_inner), length l' = length l ->
  (forall i m, nth_error l i = Some m -> nth_error l' i = Some m) -> l' = l.
Proof.
  induction l as [|a l IH]; intros [|a' l'] L H; try discriminate L; [reflexivity|].
  specialize (H 0%nat a eq_refl) as H0. cbn in H0. apply Some_inj in H0. subst a'. f_equal. apply IH; [cbn in L; lia|].
  intros i m Hm. exact (H (S i) m Hm).
Qed.
Lemma filter_same {A} (g : A -> bool) l : (forall x, In x l -> g x = true) -> filter g l = l.
Proof.
  induction l as [|a l IH]; intros H; cbn [filter]; [reflexivity|]. rewrite (H a (or_introl eq_refl)), IH; [reflexivity|].
  intros x Hx. apply H. right. exact Hx.
Qed.
Lemma filter_nothing {A} (g : A -> bool) l : (forall x, In x l -> g x = false) -> filter g l = [].
Proof.
  induction l as [|a l IH]; intros H; cbn [filter]; [reflexivity|]. rewrite (H a (or_introl eq_refl)). apply IH. intros x Hx. apply H. right. exact Hx.
Qed.

(** A failed add changes nothing only if [listed_low]; and that is enough if the
    files declare no extension, or the pool has as many extensions as messages
    or more. *)
Theorem C22_unchanged_iff X fuel p fs p' es : search_ok X -> reachable X p -> plain fs ->
  (forall f path scope x, In f fs -> ~ declares f path scope (IExt x)) \/ (length (p_messages p) <= length (p_exts p))%nat ->
  build_files X fuel p fs = Rejected p' es -> (p' = p <-> listed_low p).
Proof.
  intros SO R P Hc H. split.
  - intros -> i m x Hm Hx. exact (proj2 (C22_kept_and_left X fuel p fs p es SO R H i m m Hm Hm) x Hx).
  - intros Hl. destruct Hc as [Hn|Hc]; [exact (C22_failed_add_unchanged X fuel p fs p' es SO R P Hn Hl H)|].
    pose proof (rejected_same X _ _ _ _ _ (reachable_Inv _ _ SO R) P H) as S.
    destruct (C22_failed_add_partial X fuel p fs p' es SO R P H) as (_ & _ & _ & _ & _ & _ & L & K).
    assert (p_messages p' = p_messages p) as M.
    { apply messages_ext; [exact L|]. intros i m Hm. destruct (K i m Hm) as (xs & Hm'). rewrite Hm'. f_equal.
      destruct (C22_extension_lists X fuel p fs p' es SO R H i m _ Hm Hm') as (added & A & E). cbn [m_exts] in E. rewrite filter_app in E.
      rewrite filter_same in E by (intros x Hx; apply Nat.ltb_lt; exact (Hl i m x Hm Hx)).
      rewrite filter_nothing, app_nil_r in E.
      + subst xs. destruct m. reflexivity.
      + intros x Hx. rewrite Forall_forall in A. specialize (A x Hx). apply Nat.ltb_ge. lia. }
    destruct S as (E1 & E2 & E3 & E4 & E5 & E6 & _). destruct p, p'. cbn in *. congruence.
Qed.
Print Assumptions C22_unchanged_iff.

(** Not vacuous: a pool of three messages and three extensions; a rejected file
    with an extension changes nothing.  In pool_abcd, with two extensions, the
    same file leaves its extension behind. *)
Definition file_third : file :=
  File (b "third.proto") (b "t") [b "ab.proto"] [] [] [] [] []
    [FP (b "ext3") (Some (b ".a.b.M")) 102 Optional TInt32 [] None None None None false] None.
Definition file_fourth : file :=
  File (b "fourth.proto") (b "u") [b "ab.proto"] [] [] [DP (b "B") [fld "x" 1 Optional TMessage "NoSuchType"] [] [] [] [] [] false []] [] []
    [FP (b "ext4") (Some (b ".a.b.M")) 103 Optional TInt32 [] None None None None false] None.
Definition pool_third : pool := built (build_files demo_externs 10 pool_abcd [file_third]).
Lemma built_third : build_files demo_externs 10 pool_abcd [file_third] = Built pool_third.
Proof. vm_compute. reflexivity. Qed.
Definition lists_after (r : outcome) : option (list (list nat)) := match r with Rejected p _ => Some (map m_exts (p_messages p)) | _ => None end.
Example C22_three : reachable demo_externs pool_third /\ plain [file_fourth] /\
  (length (p_messages pool_third) <= length (p_exts pool_third))%nat /\ listed_low pool_third /\
  lists_after (build_files demo_externs 10 pool_third [file_fourth]) = Some [[0; 1; 2]; []; []]%nat /\
  lists_after (build_files demo_externs 10 pool_abcd [file_fourth]) = Some [[0; 1; 2]; []; []]%nat /\
  map m_exts (p_messages pool_abcd) = [[0; 1]; []; []]%nat.
Proof.
  split; [apply (re_built _ 10 pool_abcd [file_third] _ reach_abcd); [repeat constructor; discriminate|exact built_third]|].
  split; [repeat constructor; discriminate|]. split; [vm_compute; lia|]. split.
  { intros i m x Hm Hx. assert (In (m_exts m) (map m_exts (p_messages pool_third))) as Q by (apply in_map; exact (nth_error_In _ _ Hm)).
    assert (map m_exts (p_messages pool_third) = [[0; 1; 2]; []; []]%nat) as E by (vm_compute; reflexivity). rewrite E in Q.
    assert (length (p_messages pool_third) = 3%nat) as -> by (vm_compute; reflexivity).
    destruct Q as [Q|[Q|[Q|[]]]]; rewrite <- Q in Hx; cbn in Hx; lia. }
  split; [vm_compute; reflexivity|]. split; vm_compute; reflexivity.
Qed.
