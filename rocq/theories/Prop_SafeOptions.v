(** Adding files comes back, interpreting options included (C34). *)
From Coq Require Import String.
From Verif Require Import Base BaseProofs Value Descr Proto Build VisitProofs EventProofs BuildFrame BuildNames BuildQuiet BuildResolve BuildInv BuildSafe DeclSpec DeclProofs PoolFacts PoolMembers
  Prop_Pool ExampleFiles Prop_Defaults Prop_Accepts OptResolve OptSpec OptPass Prop_CustomOptions Prop_Labels Prop_Safe.
From Coq Require Import List Lia ZArith NArith.
Import ListNotations.
Local Open Scope list_scope.

(** [C34_comes_back_partial] for every pool with the invariant of pools; the
    proof is the same *)
Lemma comes_back X fuel p fs (depth : str -> nat) :
  Inv X p ->
  (forall q gs, exists r, x_options X q gs = Ok r) ->
  (forall f, In f fs -> known_syntax f) ->
  (forall f fd s, In f fs -> field_in f fd -> fp_type fd = TBytes -> fp_default fd = Some s -> ascii s /\ octal_small s) ->
  (forall f d, In f (pool_files p ++ fs) -> imports_publicly f d -> (depth d < depth (fl_name f))%nat) ->
  (forall f, In f (pool_files p ++ fs) -> (depth (fl_name f) < fuel)%nat) ->
  (exists p', build_files X fuel p fs = Built p') \/ (exists p' es, build_files X fuel p fs = Rejected p' es).
Proof.
  intros I Ho Hsy Hd Hr Hf.
  assert (forall f, In f (dedup p fs) -> In f fs) as Sub by (intros f Hin; apply filter_In in Hin; apply Hin).
  assert (forall f, In f (pool_files p ++ dedup p fs) -> In f (pool_files p ++ fs)) as Sub2.
  { intros f Hin. apply in_app_or in Hin. apply in_or_app. destruct Hin as [Hin|Hin]; [left; exact Hin|right; exact (Sub _ Hin)]. }
  set (rank := fun i => match nth_error (pool_files p ++ dedup p fs) i with Some f => depth (fl_name f) | None => O end).
  destruct (build_safe X fuel rank p (dedup p fs)) as [v E].
  - exact I.
  - apply dedup_unknown.
  - intros f Hin. apply known_file_syntax, Hsy, Sub, Hin.
  - intros e He.
    assert (forall fd, (ev_item e = Some (IField fd) \/ ev_item e = Some (IExt fd)) -> calm X fd) as G.
    { intros fd Hi s T1 T2 T3. destruct (visit_ok _ _ _ He) as [k [f [Hk [_ Q]]]].
      assert (field_in f fd) as Fi.
      { destruct Hi as [Hi|Hi]; rewrite Hi in Q; destruct Q as [scope [A _]]; exists (ev_path e), scope; auto. }
      destruct (Hd f fd s (Sub _ (nth_error_In _ _ Hk)) Fi T1 T3) as [A O].
      exact (C32_malformed_is_error_partial _ _ A O). }
    destruct e; try exact Logic.I; apply G; cbn; auto.
  - intros a c [f [j [d [A [B [C D]]]]]]. destruct (fnames_name _ _ _ _ _ I D) as [g [Hg <-]].
    change (raws p) with (pool_files p) in A. unfold rank. rewrite A, Hg.
    apply Hr; [apply Sub2; exact (nth_error_In _ _ A)|]. exists j. split; [exact B|].
    unfold is_public in C. apply existsb_exists in C. destruct C as [z [Hz Ez]]. apply Z.eqb_eq in Ez. subst z. exact Hz.
  - intros i Hi. change (raws p) with (pool_files p) in Hi. unfold rank.
    destruct (nth_error (pool_files p ++ dedup p fs) i) as [f|] eqn:En; [|apply nth_error_None in En; lia].
    apply Hf, Sub2. exact (nth_error_In _ _ En).
  - exact Ho.
  - unfold build_files. fold (dedup p fs). destruct (dedup p fs) as [|f fs']; [eauto|]. rewrite E.
    destruct (v_errs v); [eauto|right; eauto].
Qed.

(** The full pass over the options instead of an assumption about it.  [q] is
    what the call builds if options are left as they are; it is to meet what C58
    asks for (see C58_pools_ready), and the typed options of prost are to accept
    what the options mean. *)
Theorem C34_with_options_partial X g typed raw fuel p fs (depth : str -> nat) :
  search_ok X -> reachable X p ->
  (forall q gs, x_options X q gs = options_phase g typed raw q gs) -> raw_ok raw ->
  (forall f, In f fs -> known_syntax f) ->
  (forall f fd s, In f fs -> field_in f fd -> fp_type fd = TBytes -> fp_default fd = Some s -> ascii s /\ octal_small s) ->
  (forall f d, In f (pool_files p ++ fs) -> imports_publicly f d -> (depth d < depth (fl_name f))%nat) ->
  (forall f, In f (pool_files p ++ fs) -> (depth (fl_name f) < fuel)%nat) ->
  (forall q, build_files (as_written X) fuel p fs = Built q -> ready g q /\
     forall file path ty s encoded us m b ls, stands (length (pool_files p)) (unknown p fs) file path ty s ->
       raw file path = Some (encoded, us) -> resolved g q file path ty s encoded us m b ls -> typed ty b = true) ->
  (exists p', build_files X fuel p fs = Built p') \/ (exists p' es, build_files X fuel p fs = Rejected p' es).
Proof.
  intros SO R HX Hraw Hsy Hd Hr Hf Hq. pose proof (reachable_Inv _ _ SO R) as I. pose proof (Inv_as_written X p I) as I'.
  assert (search_ok (as_written X)) as SO' by exact SO.
  pose proof (comes_back (as_written X) fuel p fs depth I' (fun _ _ => ex_intro _ true eq_refl) Hsy Hd Hr Hf) as C.
  assert (forall q, build_files (as_written X) fuel p fs = Built q -> dedup p fs <> [] -> exists r, x_options X q (dedup p fs) = Ok r) as Op.
  { intros q B _. destruct (Hq q B) as [Rq T]. pose proof (built_files (as_written X) SO' fuel p fs q I' B) as Fs.
    assert (length (p_files q) = (length (pool_files p) + length (dedup p fs))%nat) as Ln.
    { apply (f_equal (@length _)) in Fs. rewrite app_length in Fs. unfold pool_files in Fs. rewrite !map_length in Fs. unfold pool_files. rewrite map_length. exact Fs. }
    rewrite HX. unfold options_phase. rewrite Ln, Nat.add_sub. rewrite <- (unknown_dedup X p fs I).
    pose proof (C58_interpreted g q typed (Off (length (pool_files p)) 0 0 0 0) (unknown p fs) raw Rq Hraw) as S.
    cbn [of_file] in S. rewrite (unknown_dedup X p fs I) in S at 1. specialize (S ltac:(rewrite Ln; lia)).
    destruct (resolve_options g typed q (Off (length (pool_files p)) 0 0 0 0) (unknown p fs) raw) as [[es|r]| | |]; cbn [rbind]; eauto; try contradiction.
    exfalso. destruct S as (file & path & ty & s & encoded & us & m & b & ls & A1 & A2 & A3 & A4). rewrite (T _ _ _ _ _ _ _ _ _ A1 A2 A3) in A4. discriminate A4. }
  unfold build_files in *. fold (dedup p fs) in *. destruct (dedup p fs) as [|f0 fs0] eqn:D; [left; eauto|].
  unfold build_deduped in *. change (fold_res (resolve_step (as_written X) fuel)) with (fold_res (resolve_step X fuel)) in *.
  destruct (fold_res names_step (visit (offsets_of p) (f0 :: fs0)) (V p [])) as [v1| | |]; cbn [rbind] in *; try (destruct C as [(? & C)|(? & ? & C)]; discriminate C).
  destruct (v_errs v1) eqn:E1.
  2:{ rewrite E1 in *. right. eauto. }
  destruct (fold_res (resolve_step X fuel) (visit (offsets_of p) (f0 :: fs0)) v1) as [v2| | |]; cbn [rbind] in *; try (destruct C as [(? & C)|(? & ? & C)]; discriminate C).
  destruct (v_errs v2) eqn:E2.
  2:{ rewrite E2 in *. right. eauto. }
  cbn [as_written x_options rbind] in Op. rewrite E2 in Op. destruct (Op _ eq_refl ltac:(discriminate)) as (r & ->). cbn [rbind].
  destruct r; [rewrite E2; eauto|]. destruct (push_safe [] (nowhere ErrOptions) v2) as [v3 [E3 _]]; [intros ? []|]. rewrite E3.
  destruct (v_errs v3); eauto.
Qed.
Print Assumptions C34_with_options_partial.

(** The hypotheses hold of two files, one with options of which the second has
    no meaning; adding them comes back, with the error that says so. *)
Definition sure_externs : externs := Externs (fun _ => None) (fun _ => None) true lsearch (options_phase pool_g (fun _ _ => true) bad_raw).
Lemma flat_fields f fd : forallb (fun m => match dp_nested m with [] => true | _ => false end) (fl_messages f) = true ->
  field_in f fd -> In fd (flat_map dp_fields (fl_messages f) ++ flat_map dp_exts (fl_messages f) ++ fl_exts f).
Proof.
  intros Fl (path & scope & D). rewrite forallb_forall in Fl.
  assert (forall path scope m, message_at f path scope m -> In m (fl_messages f)) as Top.
  { intros pa sc m Hm. induction Hm as [j m H|pa sc m j n H IH Hn]; [exact (nth_error_In _ _ H)|].
    specialize (Fl _ IH). destruct (dp_nested m); [destruct j; discriminate Hn|discriminate Fl]. }
  rewrite !in_app_iff, !in_flat_map. destruct D as [D|D]; inversion D; subst.
  - left. match goal with H : message_at _ _ _ _ |- _ => apply Top in H; eexists; split; [exact H|eapply nth_error_In; eassumption] end.
  - right; left. match goal with H : message_at _ _ _ _ |- _ => apply Top in H; eexists; split; [exact H|eapply nth_error_In; eassumption] end.
  - right; right. eapply nth_error_In; eassumption.
Qed.
Lemma bad_defaults f : In f bad_files ->
  forallb (fun m => match dp_nested m with [] => true | _ => false end) (fl_messages f) = true /\
  forallb (fun fd => match fp_default fd with None => true | _ => false end) (flat_map dp_fields (fl_messages f) ++ flat_map dp_exts (fl_messages f) ++ fl_exts f) = true /\
  fl_public f = [].
Proof. intros [<- |[<- |[]]]; (split; [vm_compute; reflexivity|split; vm_compute; reflexivity]). Qed.
Example C34_with_options_nonvacuous :
  search_ok sure_externs /\ (forall q gs, x_options sure_externs q gs = options_phase pool_g (fun _ _ => true) bad_raw q gs) /\ raw_ok bad_raw /\
  (forall f, In f bad_files -> known_syntax f) /\
  (forall f fd s, In f bad_files -> field_in f fd -> fp_type fd = TBytes -> fp_default fd = Some s -> ascii s /\ octal_small s) /\
  (forall f d, In f (pool_files empty_pool ++ bad_files) -> imports_publicly f d -> (0 < 0)%nat) /\
  (forall q, build_files (as_written sure_externs) 10 empty_pool bad_files = Built q -> ready pool_g q) /\
  exists p', build_files sure_externs 10 empty_pool bad_files = Rejected p' [nowhere ErrOptions].
Proof.
  split; [exact (search_same demo_externs sure_externs eq_refl demo_search)|]. split; [reflexivity|]. split; [exact bad_raw_ok|].
  split; [intros f [<- |[<- |[]]]; [left|right; right]; reflexivity|].
  split.
  { intros f fd s Hf Fd _ Ds. destruct (bad_defaults f Hf) as (A & B & _). apply (flat_fields _ _ A) in Fd.
    rewrite forallb_forall in B. apply B in Fd. rewrite Ds in Fd. discriminate Fd. }
  split.
  { intros f d Hf (k & _ & Hp). rewrite no_files in Hf. cbn [app] in Hf. destruct (bad_defaults f Hf) as (_ & _ & E). rewrite E in Hp. destruct Hp. }
  split.
  { intros q B. change (as_written sure_externs) with (as_written bad_externs) in B. apply bad_written in B. subst q. exact ready_c. }
  assert (rejects_with (build_files sure_externs 10 empty_pool bad_files) = Some [nowhere ErrOptions]) as G by (vm_compute; reflexivity).
  destruct (build_files sure_externs 10 empty_pool bad_files) as [|p' es| |]; try discriminate G. apply Some_inj in G. subst es. exists p'. reflexivity.
Qed.
