(** Handles that share a pool (C29) and the global pool (C30). *)
From Verif Require Import Base BaseProofs Value Descr Proto Build BuildFrame BuildQuiet BuildResolve BuildInv DeclSpec PoolFacts ExampleFiles Prop_Pool
  Shared SharedProofs Global.

(** ** C29, the handles: whatever calls are made on whatever handles, each
    handle shows what it would show if it had a pool of its own, so adding
    through one handle is invisible through every other (clones of the pool
    and descriptors obtained from it). *)
Theorem C29_handles_are_private X os :
  match op_run X os (Store [] []) with
  | Ok s => own_run X os [] = Ok (shown s)
  | Err _ => False
  | Panic => own_run X os [] = Panic
  | Fuel => own_run X os [] = Fuel
  end.
Proof.
  pose proof (run_refines X os (Store [] [])) as H.
  assert (counted (Store [] [])) as C.
  { split; cbn; [intros c x Hx; destruct c; discriminate|intros h c Hh; destruct h; discriminate]. }
  specialize (H C). destruct (op_run X os (Store [] [])); try exact H. apply H.
Qed.
Print Assumptions C29_handles_are_private.

Definition touches (h : nat) (o : op) : bool :=
  match o with OpAdd h' _ _ | OpDrop h' => (h' =? h)%nat | _ => false end.
Theorem C29_other_handles_unaffected X os1 os2 s1 s2 h p :
  op_run X os1 (Store [] []) = Ok s1 -> nth_error (shown s1) h = Some (Some p) ->
  (forall o, In o os2 -> touches h o = false) ->
  op_run X os2 s1 = Ok s2 -> nth_error (shown s2) h = Some (Some p).
Proof.
  intros R1 H T R2.
  assert (counted s1) as C1.
  { pose proof (run_refines X os1 (Store [] [])) as Q. rewrite R1 in Q. apply Q.
    split; cbn; [intros c x Hx; destruct c; discriminate|intros h' c Hh; destruct h'; discriminate]. }
  pose proof (run_refines X os2 s1 C1) as Q. rewrite R2 in Q. destruct Q as [_ Q]. clear R1 R2 C1.
  revert Q H T. generalize (shown s1) (shown s2). clear. induction os2 as [|o os IH]; cbn [own_run]; intros l l' Q H T.
  - inversion Q; subst. exact H.
  - destruct (own_step X o l) as [l1| | |] eqn:E; try discriminate. cbn [rbind] in Q. apply (IH l1 l'); [exact Q| |intros; apply T; right; assumption].
    specialize (T o (or_introl eq_refl)). destruct o as [|k|k|k fuel fs]; cbn in E, T.
    + inversion E; subst. rewrite nth_error_app1; [exact H|]. apply nth_error_Some. congruence.
    + destruct (nth_error l k) as [[q|]|]; inversion E; subst; try exact H. rewrite nth_error_app1; [exact H|]. apply nth_error_Some. congruence.
    + destruct (nth_error l k) as [[q|]|]; inversion E; subst; try exact H. unfold set_nth. rewrite nth_upd, T. exact H.
    + destruct (nth_error l k) as [[q|]|]; try (inversion E; subst; exact H).
      destruct (build_files X fuel q fs); inversion E; subst; unfold set_nth; rewrite nth_upd, T; exact H.
Qed.
Print Assumptions C29_other_handles_unaffected.

Example C29_handles_nonvacuous :
  exists s, op_run demo_externs [OpNew; OpAdd 0 10 [file_ab]; OpClone 0; OpAdd 0 10 [file_cd]] (Store [] []) = Ok s /\
    shown s = [Some pool_abcd; Some pool_ab].
Proof. eexists. split; vm_compute; reflexivity. Qed.

(** ** C30 *)

Definition sane (r : req) : Prop := match r with Snapshot => True | Add _ fs => plain fs end.

(** what holds at each point of an execution from [p] *)
Record GI (X : externs) (p : pool) (s : gstate) : Prop := {
  gi_at : forall i t, nth_error (g_threads s) i = Some t ->
     match t_at t with
     | Holding | Working _ => g_lock s = Some i
     | _ => g_lock s <> Some i
     end;
  gi_serial : exists q, serial X p (g_log s) q /\
     match g_lock s with
     | None => g_poisoned s = false -> g_pool s = q
     | Some i => exists t, nth_error (g_threads s) i = Some t /\ match t_at t with Working p0 => p0 = q | _ => g_pool s = q end
     end;
  gi_free : g_poisoned s = true -> g_lock s = None }.

Lemma nth_set i j t l : nth_error (set_thread i t l) j = if (i =? j)%nat then option_map (fun _ => t) (nth_error l j) else nth_error l j.
Proof. unfold set_thread. apply nth_upd. Qed.

Ltac at_thread A i t Hi :=
  intros j u Hu; try rewrite nth_set in Hu; destruct (Nat.eqb_spec i j) as [<- |Hne];
  [try rewrite Hi in Hu; cbn in Hu; try (apply Some_inj in Hu; subst u); cbn; try congruence; try discriminate
  |specialize (A _ _ Hu); cbn in A |- *; destruct (t_at u); try congruence; try discriminate].

Lemma gi_step X p s i s' : GI X p s -> gstep X s i s' -> GI X p s'.
Proof.
  intros [A [q [S Q]] F] H. destruct H as [pool ts log i r todo Hi|pool ts log i r todo Hi|pool ts log i todo ps Hi|pool ts log i fuel fs todo ps Hi|pool ts log i fuel fs todo ps p0 q' Hi|pool ts log i fuel fs todo ps p0 p' Hi Hb|pool ts log i fuel fs todo ps p0 p' es Hi Hb|pool ts log i fuel fs todo ps p0 q' Hi Hb]; cbn [g_threads g_lock g_poisoned g_pool g_log] in *.
  - split; cbn [g_threads g_lock g_poisoned g_pool g_log].
    + at_thread A i t Hi.
    + exists q. split; [exact S|]. exists (Th (r :: todo) Holding). rewrite nth_set, Nat.eqb_refl, Hi. cbn. auto.
    + discriminate.
  - split; cbn [g_threads g_lock g_poisoned g_pool g_log].
    + at_thread A i t Hi.
    + exists q. split; [exact S|]. discriminate.
    + auto.
  - destruct Q as [t [Ht Q]]. rewrite Hi in Ht. apply Some_inj in Ht. subst t. cbn in Q. subst q.
    assert (ps = false) as -> by (destruct ps; [specialize (F eq_refl); discriminate|reflexivity]).
    split; cbn [g_threads g_lock g_poisoned g_pool g_log].
    + at_thread A i t Hi.
    + exists pool. split; [constructor; exact S|]. auto.
    + discriminate.
  - destruct Q as [t [Ht Q]]. rewrite Hi in Ht. apply Some_inj in Ht. subst t. cbn in Q. subst q.
    split; cbn [g_threads g_lock g_poisoned g_pool g_log].
    + at_thread A i t Hi.
    + exists pool. split; [exact S|]. eexists. rewrite nth_set, Nat.eqb_refl, Hi. split; reflexivity.
    + exact F.
  - destruct Q as [t [Ht Q]]. rewrite Hi in Ht. apply Some_inj in Ht. subst t. cbn in Q. subst q.
    split; cbn [g_threads g_lock g_poisoned g_pool g_log].
    + exact A.
    + exists p0. split; [exact S|]. eexists. rewrite Hi. split; reflexivity.
    + exact F.
  - destruct Q as [t [Ht Q]]. rewrite Hi in Ht. apply Some_inj in Ht. subst t. cbn in Q. subst q.
    split; cbn [g_threads g_lock g_poisoned g_pool g_log].
    + at_thread A i t Hi.
    + exists p'. split; [eapply se_added; eassumption|]. auto.
    + auto.
  - destruct Q as [t [Ht Q]]. rewrite Hi in Ht. apply Some_inj in Ht. subst t. cbn in Q. subst q.
    split; cbn [g_threads g_lock g_poisoned g_pool g_log].
    + at_thread A i t Hi.
    + exists p'. split; [eapply se_refused; eassumption|]. auto.
    + auto.
  - split; cbn [g_threads g_lock g_poisoned g_pool g_log].
    + at_thread A i t Hi.
    + exists q. split; [exact S|]. discriminate.
    + auto.
Qed.
Lemma gi_start X p progs : GI X p (start p progs).
Proof.
  split; cbn.
  - intros i t H. rewrite nth_error_map in H. destruct (nth_error progs i); [|discriminate]. cbn in H. apply Some_inj in H. subst. discriminate.
  - exists p. split; [constructor|]. auto.
  - discriminate.
Qed.

(** Whatever the interleaving, the answers are those of a single thread making
    the requests one at a time in the order of the log, and a free, unpoisoned
    pool is the one that results. *)
Theorem C30_linearizable X p progs s :
  gsteps X (start p progs) s ->
  exists q, serial X p (g_log s) q /\ (g_lock s = None -> g_poisoned s = false -> g_pool s = q).
Proof.
  intros H. assert (GI X p s) as I by (induction H; [apply gi_start|eapply gi_step; eassumption]).
  destruct I as [_ [q [S Q]] _]. exists q. split; [exact S|]. intros E. rewrite E in Q. exact Q.
Qed.
Print Assumptions C30_linearizable.

(** The log is real: each entry is written by a step of its thread between the
    start and the end of that request, and the threads' requests are answered in
    program order. *)
Definition answers (r : req) (e : entry) : Prop :=
  match r, e with
  | Snapshot, Snapped _ => True
  | Add _ fs, Added fs' | Add _ fs, Refused fs' => fs = fs'
  | _, _ => False
  end.
Definition of_thread (i : nat) (log : list (nat * entry)) : list entry :=
  map snd (filter (fun e => (fst e =? i)%nat) log).
Lemma of_thread_snoc i j e log : of_thread i (log ++ [(j, e)]) = of_thread i log ++ (if (j =? i)%nat then [e] else []).
Proof. unfold of_thread. rewrite filter_app, map_app. cbn. destruct (j =? i)%nat; reflexivity. Qed.
Theorem C30_program_order X p progs s : gsteps X (start p progs) s ->
  forall i prog, nth_error progs i = Some prog -> exists t answered,
    nth_error (g_threads s) i = Some t /\ prog = answered ++ t_todo t /\ Forall2 answers answered (of_thread i (g_log s)).
Proof.
  intros H. induction H as [|k s s' H IH St]; intros i prog Hp.
  - exists (Th prog Idle), []. cbn. rewrite nth_error_map, Hp. cbn. auto.
  - specialize (IH i prog Hp). destruct IH as [t [ans [Ht [E A]]]].
    assert (forall r x, nth_error (g_threads s) k = Some (Th r x) ->
      forall y, exists t', nth_error (set_thread k (Th r y) (g_threads s)) i = Some t' /\ t_todo t' = t_todo t) as K1.
    { intros r x Hk y. rewrite nth_set. destruct (Nat.eqb_spec k i) as [<- |Hne]; [|eauto].
      rewrite Hk. cbn. eexists. split; [reflexivity|]. rewrite Hk in Ht. apply Some_inj in Ht. subst. reflexivity. }
    assert (forall r todo x e, nth_error (g_threads s) k = Some (Th (r :: todo) x) -> answers r e ->
      exists t' ans', nth_error (set_thread k (Th todo Idle) (g_threads s)) i = Some t' /\ prog = ans' ++ t_todo t' /\
        Forall2 answers ans' (of_thread i (g_log s ++ [(k, e)]))) as K2.
    { intros r todo x e Hk Ha. rewrite nth_set, of_thread_snoc. destruct (Nat.eqb_spec k i) as [<- |Hne].
      - rewrite Hk. cbn. exists (Th todo Idle), (ans ++ [r]). rewrite Hk in Ht. apply Some_inj in Ht. subst t. cbn in E.
        split; [reflexivity|]. split; [rewrite <- app_assoc; exact E|]. apply Forall2_app; [exact A|]. constructor; [exact Ha|constructor].
      - exists t, ans. rewrite app_nil_r. auto. }
    destruct St; cbn [g_threads g_log] in *.
    all: try (edestruct K1 as [t' [T1 T2]]; [eassumption|]; exists t', ans; rewrite T2; split; [exact T1|]; auto; fail).
    all: try (eapply K2; [eassumption|cbn; auto]; fail).
    exists t, ans. auto.
Qed.
Print Assumptions C30_program_order.

(** what it means for a pool to have grown *)
Definition grown (p q : pool) : Prop :=
  (exists fs, pool_files q = pool_files p ++ fs) /\
  (forall n d, get_by_name p n = Some d -> get_by_name q n = Some d) /\
  (forall n i, get_file_by_name p n = Some i -> get_file_by_name q n = Some i).
Lemma grown_refl p : grown p p.
Proof. split; [exists []; symmetry; apply app_nil_r|]. auto. Qed.
Lemma grown_trans p q r : grown p q -> grown q r -> grown p r.
Proof.
  intros [[a A] [B C]] [[a' A'] [B' C']]. split; [exists (a ++ a'); rewrite A', A, app_assoc; reflexivity|]. auto.
Qed.
Lemma grown_built X fuel p fs p' : search_ok X -> reachable X p -> plain fs -> build_files X fuel p fs = Built p' -> grown p p'.
Proof.
  intros SO R P H. pose proof (reachable_Inv _ _ SO R) as I. split; [exists (dedup p fs); eapply built_files; eassumption|].
  split; intros; eapply (C29_existing_unchanged X fuel p fs p'); eauto.
Qed.
Lemma grown_rejected X fuel p fs p' es : search_ok X -> reachable X p -> plain fs -> build_files X fuel p fs = Rejected p' es -> grown p p'.
Proof.
  intros SO R P H. pose proof (reachable_Inv _ _ SO R) as I. pose proof (rejected_same X _ _ _ _ _ I P H) as S.
  destruct S as [E1 [E2 [E3 _]]]. split; [exists []; rewrite app_nil_r; unfold pool_files; rewrite E3; reflexivity|].
  unfold get_by_name, get_file_by_name. rewrite E1, E2. auto.
Qed.

Definition sane_entry (e : entry) : Prop := match e with Snapped _ => True | Added fs | Refused fs => plain fs end.
Lemma serial_reachable X p log q : search_ok X -> reachable X p -> Forall (fun e => sane_entry (snd e)) log -> serial X p log q ->
  reachable X q /\ grown p q.
Proof.
  intros SO R F S. revert F. induction S as [|log q i S IH|log q q' i fuel fs S IH H|log q q' i fuel fs es S IH H]; intros F.
  - split; [exact R|apply grown_refl].
  - apply Forall_app in F. destruct F as [F _]. auto.
  - apply Forall_app in F. destruct F as [F1 F2]. specialize (IH F1). inversion F2; subst. cbn in *. destruct IH as [R' G].
    split; [eapply re_built; eassumption|]. eapply grown_trans; [exact G|]. eapply grown_built; eassumption.
  - apply Forall_app in F. destruct F as [F1 F2]. specialize (IH F1). inversion F2; subst. cbn in *. destruct IH as [R' G].
    split; [eapply re_rejected; eassumption|]. eapply grown_trans; [exact G|]. eapply grown_rejected; eassumption.
Qed.
Lemma serial_split X p log1 : forall log2 r, serial X p (log1 ++ log2) r -> exists q, serial X p log1 q /\ serial X q log2 r.
Proof.
  intros log2. induction log2 as [|e log2 IH] using rev_ind; intros r S.
  - rewrite app_nil_r in S. exists r. split; [exact S|constructor].
  - rewrite app_assoc in S. inversion S as [E|log q i S' E|log q q' i fuel fs S' H E|log q q' i fuel fs es S' H E].
    + apply (f_equal (@length _)) in E. rewrite app_length in E. cbn in E. lia.
    + apply app_inj_tail in E. destruct E as [-> <-]. destruct (IH _ S') as [q0 [A B]]. subst. exists q0. split; [exact A|]. constructor. exact B.
    + apply app_inj_tail in E. destruct E as [-> <-]. destruct (IH _ S') as [q0 [A B]]. subst. exists q0. split; [exact A|]. econstructor; eassumption.
    + apply app_inj_tail in E. destruct E as [-> <-]. destruct (IH _ S') as [q0 [A B]]. subst. exists q0. split; [exact A|]. eapply se_refused; eassumption.
Qed.
Lemma serial_cons X p e log q : serial X p (e :: log) q -> exists r, serial X p [e] r /\ serial X r log q.
Proof. intros S. exact (serial_split X p [e] log q S). Qed.
Lemma serial_nil X p log r : serial X p log r -> log = [] -> r = p.
Proof. intros S E. destruct S; [reflexivity| | |]; destruct log; discriminate. Qed.
Lemma serial_one X p l r : serial X p l r -> forall i e, l = [(i, e)] ->
  match e with
  | Snapped q => q = p /\ r = p
  | Added fs => exists fuel, build_files X fuel p fs = Built r
  | Refused fs => exists fuel es, build_files X fuel p fs = Rejected r es
  end.
Proof.
  intros S i e E. destruct S as [|log q j S|log q q' j fuel fs S H|log q q' j fuel fs es S H]; [discriminate| | |];
    (destruct log as [|x log]; [|destruct log; discriminate]); cbn in E; inversion E; subst;
    apply serial_nil in S; auto; subst; eauto.
Qed.
Lemma snap_inv X p i q r : serial X p [(i, Snapped q)] r -> q = p /\ r = p.
Proof. intros S. exact (serial_one _ _ _ _ S _ _ eq_refl). Qed.

Lemma log_sane X p progs s : (forall prog r, In prog progs -> In r prog -> sane r) ->
  gsteps X (start p progs) s -> Forall (fun e => sane_entry (snd e)) (g_log s).
Proof.
  intros Sn H. pose proof (fun i prog => C30_program_order X p progs s H i prog) as PO.
  apply Forall_forall. intros [i e] He. cbn.
  assert (exists prog, nth_error progs i = Some prog) as [prog Hp].
  { clear - H He. assert (length (g_threads s) = length progs) as L.
    { clear He. induction H as [|k s s' H IH St]; [apply map_length|].
      rewrite <- IH. destruct St; cbn; try apply upd_length; reflexivity. }
    revert i e He. induction H as [|k s s' H IH St]; intros i e He; [destruct He|].
    assert (length (g_threads s) = length progs) as L'.
    { rewrite <- L. destruct St; cbn; try (symmetry; apply upd_length); reflexivity. }
    specialize (IH L'). destruct St; cbn [g_log g_threads] in *; eauto;
      apply in_app_or in He; destruct He as [He|[He|[]]]; eauto; inversion He; subst;
      match goal with Hi : nth_error ?ts i = Some (Th _ _) |- _ => assert (i < length ts)%nat by (apply nth_error_Some; congruence) end;
      destruct (nth_error progs i) eqn:Q; eauto; apply nth_error_None in Q; lia. }
  destruct (PO i prog Hp) as [t [ans [_ [E F]]]].
  assert (In e (of_thread i (g_log s))) as Hin.
  { unfold of_thread. apply in_map_iff. exists (i, e). split; [reflexivity|]. apply filter_In. cbn. rewrite Nat.eqb_refl. auto. }
  apply In_nth_error in Hin. destruct Hin as [j Hj]. destruct (F2_nth_r _ _ _ F _ _ Hj) as [r [Hr A]].
  assert (sane r) as Hs.
  { apply (Sn prog); [eapply nth_error_In; exact Hp|]. rewrite E. apply in_or_app. left. eapply nth_error_In. exact Hr. }
  destruct r, e; cbn in *; try contradiction; try exact Logic.I; subst; exact Hs.
Qed.

(** Every snapshot contains every file added successfully before it was taken,
    shows only complete adds (it is a pool some sequence of calls produces), and
    later snapshots only grow. *)
Theorem C30_snapshots_grow X p progs s :
  search_ok X -> reachable X p -> (forall prog r, In prog progs -> In r prog -> sane r) ->
  gsteps X (start p progs) s ->
  forall log1 log2 i e j q,
    g_log s = log1 ++ (i, e) :: log2 -> In (j, Snapped q) log2 ->
    reachable X q /\ grown p q /\
    match e with
    | Snapped q0 => grown q0 q
    | Added fs => forall f, In f fs -> exists g, In g (pool_files q) /\ fl_name g = fl_name f
    | Refused _ => True
    end.
Proof.
  intros SO R Sn H log1 log2 i e j q E Hq. pose proof (log_sane X p progs s Sn H) as F.
  destruct (C30_linearizable X p progs s H) as [r [S _]]. rewrite E in S, F.
  apply in_split in Hq. destruct Hq as [l1 [l2 ->]].
  apply Forall_app in F. destruct F as [F1 F]. inversion F as [|? ? Fe F2]; subst. apply Forall_app in F2. destruct F2 as [F2 F3]. cbn in Fe.
  destruct (serial_split _ _ _ _ _ S) as [q0 [S0 S1]].
  destruct (serial_cons _ _ _ _ _ S1) as [q1 [S2 S3]].
  destruct (serial_split _ _ _ _ _ S3) as [q2 [S4 S5]].
  destruct (serial_cons _ _ _ _ _ S5) as [q3 [S6 _]]. apply snap_inv in S6. destruct S6 as [-> _].
  destruct (serial_reachable _ _ _ _ SO R F1 S0) as [R0 G0].
  assert (Forall (fun e => sane_entry (snd e)) [(i, e)]) as Fe' by (constructor; [exact Fe|constructor]).
  destruct (serial_reachable _ _ _ _ SO R0 Fe' S2) as [R1 G1].
  destruct (serial_reachable _ _ _ _ SO R1 F2 S4) as [R2 G2].
  split; [exact R2|]. split; [eapply grown_trans; [exact G0|eapply grown_trans; eassumption]|].
  destruct e as [p0|fs|fs]; [| |exact Logic.I].
  - apply snap_inv in S2. destruct S2 as [-> ->]. exact G2.
  - intros f Hf. destruct (serial_one _ _ _ _ S2 _ _ eq_refl) as [fuel Hb].
    cbn in Fe.
      assert (exists i, get_file_by_name q1 (fl_name f) = Some i) as [i' Hi'].
      { pose proof (C23_adding_twice X fuel q0 fs q1 SO R0 Fe Hb) as _. 
        pose proof (built_files X SO _ _ _ _ (reachable_Inv _ _ SO R0) Hb) as Ef.
        destruct (get_file_by_name q0 (fl_name f)) as [i'|] eqn:K; [exists i'; apply G1; exact K|].
        assert (In f (pool_files q1)) as Hin.
        { rewrite Ef. apply in_or_app. right. unfold dedup. apply filter_In. split; [exact Hf|]. unfold get_file_by_name in K. rewrite K. reflexivity. }
        apply In_nth_error in Hin. destruct Hin as [i' Hi']. exists i'. apply (C23_file_lookup X q1 SO R1). eauto. }
      apply G2 in Hi'. apply (C23_file_lookup X q2 SO R2) in Hi'. destruct Hi' as [g [Hg En]]. exists g. split; [eapply nth_error_In; exact Hg|exact En].
Qed.
Print Assumptions C30_snapshots_grow.

(** Nothing waits for ever: wherever an execution stands, it can be continued
    until all requests are answered, unless a panic unwound their thread, or an
    add runs out of stack (which aborts the process). *)
Definition busy (s : gstate) : Prop := forall i t, nth_error (g_threads s) i = Some t ->
  match t_at t with
  | Holding => t_todo t <> []
  | Working _ => exists fuel fs todo, t_todo t = Add fuel fs :: todo
  | _ => True
  end.
Lemma busy_step X s i s' : busy s -> gstep X s i s' -> busy s'.
Proof.
  intros B H. destruct H; intros j u Hu; cbn [g_threads] in *; try exact (B _ _ Hu);
    rewrite nth_set in Hu; (destruct (Nat.eqb_spec i j) as [<- |Hne]; [|exact (B _ _ Hu)]);
    match goal with H : nth_error _ i = Some _ |- _ => rewrite H in Hu end; cbn in Hu; apply Some_inj in Hu; subst u; cbn; try exact Logic.I; try discriminate; eauto.
Qed.
Definition to_go (t : thread) : nat :=
  match t_at t with Idle => 4 * length (t_todo t) | Holding => 4 * length (t_todo t) - 1 | Working _ => 4 * length (t_todo t) - 2 | Dead => 0 end.
Definition all_to_go (ts : list thread) : nat := list_sum (map to_go ts).
Lemma to_go_set ts : forall i t t', nth_error ts i = Some t -> (to_go t' < to_go t)%nat -> (all_to_go (set_thread i t' ts) < all_to_go ts)%nat.
Proof.
  unfold all_to_go, set_thread. induction ts as [|u ts IH]; intros [|i] t t' H L; try discriminate; cbn [nth_error upd map] in *; unfold list_sum in *; cbn [fold_right] in *.
  - apply Some_inj in H. subst. lia.
  - specialize (IH i t t' H L). lia.
Qed.
Definition adds_end (X : externs) (ts : list thread) : Prop :=
  forall t fuel fs q, In t ts -> In (Add fuel fs) (t_todo t) -> build_files X fuel q fs <> Overflow.
Lemma adds_end_step X s i s' : adds_end X (g_threads s) -> gstep X s i s' -> adds_end X (g_threads s').
Proof.
  intros A H. assert (forall ts j t t', nth_error ts j = Some t -> incl (t_todo t') (t_todo t) -> adds_end X ts -> adds_end X (set_thread j t' ts)) as K.
  { intros ts j t t' Ht Hi Ha u fuel fs q Hu Hin. apply In_nth_error in Hu. destruct Hu as [k Hk]. rewrite nth_set in Hk.
    destruct (Nat.eqb_spec j k) as [Ejk|Hne]; [|exact (Ha _ _ _ _ (nth_error_In _ _ Hk) Hin)]. subst k.
    rewrite Ht in Hk. cbn in Hk. apply Some_inj in Hk. subst u. exact (Ha _ _ _ _ (nth_error_In _ _ Ht) (Hi _ Hin)). }
  destruct H; cbn [g_threads] in *; try exact A; (eapply K; [eassumption| |exact A]; cbn; intros x Hx; cbn; auto).
Qed.
Lemma can_step X p s : GI X p s -> busy s -> adds_end X (g_threads s) ->
  (forall t, In t (g_threads s) -> t_todo t = [] \/ t_at t = Dead) \/
  exists i s', gstep X s i s' /\ (all_to_go (g_threads s') < all_to_go (g_threads s))%nat.
Proof.
  intros [A [q [S Q]] F] B E. destruct s as [pool lock ps ts log]. cbn [g_lock g_threads g_pool g_poisoned g_log] in *. destruct lock as [i|].
  - right. destruct Q as [t [Ht Q]]. specialize (A _ _ Ht). pose proof (B _ _ Ht) as Bt. destruct t as [todo [| |p0|]]; cbn in A, Bt, Q; try congruence.
    + destruct todo as [|r todo]; [congruence|]. destruct r as [|fuel fs].
      * eexists i, _. split; [eapply g_snap; exact Ht|]. cbn [g_threads]. eapply to_go_set; [exact Ht|]. cbn. lia.
      * eexists i, _. split; [eapply g_begin; exact Ht|]. cbn [g_threads]. eapply to_go_set; [exact Ht|]. cbn. lia.
    + destruct Bt as (fuel & fs & todo' & ->). destruct (build_files X fuel p0 fs) as [p'|p' es| |] eqn:Hb.
      * eexists i, _. split; [eapply g_built; eassumption|]. cbn [g_threads]. eapply to_go_set; [exact Ht|]. cbn. lia.
      * eexists i, _. split; [eapply g_rejected; eassumption|]. cbn [g_threads]. eapply to_go_set; [exact Ht|]. cbn. lia.
      * eexists i, _. split; [eapply (g_crashed X _ _ _ _ _ _ _ _ _ pool); eassumption|]. cbn [g_threads]. eapply to_go_set; [exact Ht|]. cbn. lia.
      * exfalso. exact (E _ fuel fs p0 (nth_error_In _ _ Ht) (or_introl eq_refl) Hb).
  - assert ((forall t, In t ts -> t_todo t = [] \/ t_at t = Dead) \/ exists i r todo, nth_error ts i = Some (Th (r :: todo) Idle)) as [D|(i & r & todo & Ht)].
    { clear - A. induction ts as [|u ts IH]; [left; intros t []|].
      destruct IH as [D|(i & r & todo & H)].
      - intros i t H. specialize (A (Datatypes.S i) t H). destruct (t_at t); first [discriminate A|intros K; discriminate K].
      - destruct u as [[|r todo] ph]; [left; intros t [<- |Hin]; auto|]. destruct ph as [| |p0|].
        + right. exists 0%nat, r, todo. reflexivity.
        + exfalso. specialize (A 0%nat _ eq_refl). discriminate A.
        + exfalso. specialize (A 0%nat _ eq_refl). discriminate A.
        + left. intros t [<- |Hin]; auto.
      - right. exists (Datatypes.S i), r, todo. exact H. }
    + left. exact D.
    + right. destruct ps; eexists i, _; (split; [first [eapply g_acquire; exact Ht|eapply g_acquire_poisoned; exact Ht]|]); cbn [g_threads]; (eapply to_go_set; [exact Ht|]); cbn; lia.
Qed.
Lemma gsteps_trans X a b c : gsteps X a b -> gsteps X b c -> gsteps X a c.
Proof. intros H K. induction K; [exact H|]. eapply gs_step; eassumption. Qed.
Theorem C30_no_deadlock X p progs s :
  gsteps X (start p progs) s ->
  (forall prog fuel fs q, In prog progs -> In (Add fuel fs) prog -> build_files X fuel q fs <> Overflow) ->
  exists s', gsteps X s s' /\ forall t, In t (g_threads s') -> t_todo t = [] \/ t_at t = Dead.
Proof.
  intros H E.
  assert (GI X p s /\ busy s /\ adds_end X (g_threads s)) as I.
  { induction H as [|k s s' H IH St].
    - split; [apply gi_start|]. split.
      + intros i t Ht. cbn in Ht. rewrite nth_error_map in Ht. destruct (nth_error progs i); [|discriminate]. cbn in Ht. apply Some_inj in Ht. subst t. exact Logic.I.
      + intros t fuel fs q Hin Ha. cbn in Hin. apply in_map_iff in Hin. destruct Hin as (prog & <- & Hp). eapply E; eassumption.
    - destruct IH as (I1 & I2 & I3). split; [eapply gi_step; eassumption|]. split; [eapply busy_step; eassumption|eapply adds_end_step; eassumption]. }
  clear H E. remember (all_to_go (g_threads s)) as n eqn:En. revert s I En. induction n as [n IH] using (well_founded_induction Wf_nat.lt_wf). intros s (I1 & I2 & I3) ->.
  destruct (can_step X p s I1 I2 I3) as [D|(i & s' & St & L)].
  - exists s. split; [apply gs_refl|exact D].
  - destruct (IH _ L s') as (s2 & H1 & H2); [|reflexivity|].
    + split; [eapply gi_step; eassumption|]. split; [eapply busy_step; eassumption|eapply adds_end_step; eassumption].
    + exists s2. split; [|exact H2]. eapply gsteps_trans; [|exact H1]. eapply gs_step; [apply gs_refl|exact St].
Qed.
Print Assumptions C30_no_deadlock.

(** Example: two threads, an add interleaved with a snapshot that waits for it. *)
Example C30_nonvacuous :
  let progs := [[Add 10 [file_ab]]; [Snapshot; Snapshot]] in
  exists s, gsteps demo_externs (start empty_pool progs) s /\
    g_log s = [(1, Snapped empty_pool); (0, Added [file_ab]); (1, Snapped pool_ab)]%nat.
Proof.
  cbv zeta. eexists. split.
  { eapply gs_step. eapply gs_step. eapply gs_step. eapply gs_step. eapply gs_step. eapply gs_step. eapply gs_step. eapply gs_step.
    apply gs_refl.
    - eapply (g_acquire _ _ _ _ 1%nat). reflexivity.
    - eapply g_snap. reflexivity.
    - eapply (g_acquire _ _ _ _ 0%nat). reflexivity.
    - eapply g_begin. reflexivity.
    - eapply (g_dirty _ _ _ _ _ _ _ _ _ _ pool_abcd). reflexivity.
    - eapply g_built; [reflexivity|exact built_ab].
    - eapply (g_acquire _ _ _ _ 1%nat). reflexivity.
    - eapply g_snap. reflexivity. }
  reflexivity.
Qed.

(** Once an add has panicked no further request is answered: the mutex stays poisoned. *)
Theorem C30_poisoned_forever X s i s' : g_poisoned s = true -> g_lock s = None -> gstep X s i s' ->
  g_poisoned s' = true /\ g_lock s' = None /\ g_log s' = g_log s.
Proof. intros P L H. destruct H; cbn in *; try discriminate; auto. Qed.
Print Assumptions C30_poisoned_forever.
