(** One call or several (C64), and the pool made again from what it gives back
    (C65). *)
From Coq Require Import String.
From Verif Require Import Base BaseProofs Value Descr Proto Build VisitProofs EventProofs BuildFrame BuildNames BuildQuiet BuildResolve BuildInv BuildSafe DeclSpec DeclProofs PoolFacts ExampleFiles PoolMembers ResolveSpec Prop_Resolve Prop_Accepts ValidSpec AcceptSteps AcceptNames AcceptRefs AcceptResolve AcceptVisible Raw RawSpec RawPlaces RawWalk RawAgain RawTrack RawBack Prop_GivenBack JoinSpec Join JoinAhead JoinCalls JoinAgain.
From Coq Require Import List Lia ZArith NArith.
Import ListNotations.
Local Open Scope list_scope.

(** ** When a call succeeds *)
Definition two_phases X fuel p fs q : Prop :=
  exists p1, fold_res names_step (visit (offsets_of p) fs) (V p []) = Ok (V p1 []) /\
    fold_res (resolve_step X fuel) (visit (offsets_of p) fs) (V p1 []) = Ok (V q []).
Lemma built_phases X fuel p fs q : build_files X fuel p fs = Built q <->
  (dedup p fs = [] /\ q = p) \/
  (dedup p fs <> [] /\ two_phases X fuel p (dedup p fs) q /\ x_options X q (dedup p fs) = Ok true).
Proof.
  split.
  - intros H. pose proof (build_built _ _ _ _ _ H) as [E|(N & v & B & Q & ->)]; [left; exact E|]. right. split; [exact N|].
    pose proof (quiet_phases _ _ _ _ _ B Q) as (p1 & H1 & H2). split; [exists p1; auto|].
    unfold build_deduped in B. rewrite H1 in B. cbn [rbind v_errs] in B. rewrite H2 in B. cbn [rbind v_errs v_pool] in B.
    destruct (x_options X (v_pool v) (dedup p fs)) as [[]| | |]; cbn [rbind] in B; try discriminate; [reflexivity|].
    apply Ok_inj in B. rewrite <- B in Q. discriminate.
  - intros [[E ->]|(N & (p1 & H1 & H2) & Ho)]; unfold build_files; fold (dedup p fs).
    + rewrite E. reflexivity.
    + destruct (dedup p fs) as [|f l]; [congruence|]. unfold build_deduped. rewrite H1. cbn [rbind v_errs]. rewrite H2. cbn [rbind v_errs v_pool].
      rewrite Ho. reflexivity.
Qed.
Lemma two_names X (SO : search_ok X) fuel p (Iv : Inv X p) fs (U : unknown_files p fs) q : two_phases X fuel p fs q ->
  exists l, p_file_names q = p_file_names p ++ l /\ map fst l = map fl_name fs.
Proof.
  intros (p1 & H1 & H2). pose proof (calls_RI X SO p Iv fs U p1 H1 fuel q H2) as R. pose proof (calls_NI p fs p1 H1) as NI.
  exists (flat_map ev_file (visit (offsets_of p) fs)). split.
  - rewrite (ri_fnames _ _ _ _ _ _ R). exact (ni_fnames _ _ _ _ _ (ni_nf _ _ _ _ NI)).
  - rewrite file_events_flat. apply (map_mapi_fst fl_name).
Qed.
Lemma assoc_s_app_l {A} k (l l' : list (str * A)) : assoc_s k l' = None -> assoc_s k (l ++ l') = assoc_s k l.
Proof. intros H. induction l as [|[k' a] l IH]; [exact H|]. cbn. destruct (bytes_eqb k k'); [reflexivity|exact IH]. Qed.
(** the files of the second call that are new are those that are new to the first *)
Lemma dedup_second X (SO : search_ok X) fuel p (Iv : Inv X p) fs1 fs2 p2 : build_files X fuel p fs1 = Built p2 ->
  (forall f g, In f fs1 -> In g fs2 -> fl_name f <> fl_name g) -> dedup p2 fs2 = dedup p fs2.
Proof.
  intros B D. apply built_phases in B. destruct B as [[_ ->]|(_ & B & _)]; [reflexivity|].
  destruct (two_names X SO fuel p Iv _ (dedup_unknown p fs1) p2 B) as (l & E & L). unfold dedup. rewrite E.
  assert (forall g, In g fs2 -> assoc_s (fl_name g) (p_file_names p ++ l) = assoc_s (fl_name g) (p_file_names p)) as Q.
  { intros g Hg. apply assoc_s_app_l. apply assoc_s_None. rewrite L. intros K. apply in_map_iff in K. destruct K as (f & F1 & F2).
    apply filter_In in F2. apply (D f g); [apply F2|exact Hg|exact F1]. }
  clear - Q. induction fs2 as [|g fs2 IH]; [reflexivity|]. cbn [filter]. rewrite (Q g) by (left; reflexivity). rewrite IH by (intros h Hh; apply Q; right; exact Hh). reflexivity.
Qed.
Lemma settled_events p fs : (forall f, In f fs -> settled_file f) -> Forall settled_ev (visit (offsets_of p) fs).
Proof.
  intros H. apply Forall_forall. intros e He. destruct (ev_item e) as [it|] eqn:Ei.
  - destruct (event_new p fs e it He Ei) as (k & f & _ & Hf & scope & D & _). apply nth_error_In in Hf. pose proof (H f Hf _ _ _ D) as Q.
    destruct e; cbn in Ei; try discriminate; injection Ei as <-; cbn in *; try exact Logic.I; exact Q.
  - destruct e; cbn in Ei; try discriminate. exact Logic.I.
Qed.

(** ** C64 *)

(** Files may be given to a pool in one call or in two: with references that
    are absolute or have no dot in the files of the first call, and once that
    call was accepted, the two calls are accepted exactly when the one is, and
    the pool is the same. *)
Theorem C64_one_call X fuel p fs1 fs2 p2 q : search_ok X -> reachable X p ->
  build_files X fuel p fs1 = Built p2 ->
  (forall f, In f fs1 -> settled_file f) ->
  (forall f g, In f fs1 -> In g fs2 -> fl_name f <> fl_name g) ->
  x_options X q (unknown p (fs1 ++ fs2)) = x_options X q (unknown p fs2) ->
  (build_files X fuel p (fs1 ++ fs2) = Built q <-> build_files X fuel p2 fs2 = Built q).
Proof.
  intros SO R B1 ST D Ho. pose proof (reachable_Inv _ _ SO R) as Iv. rewrite !(unknown_dedup X p _ Iv) in Ho.
  pose proof (dedup_second X SO fuel p Iv fs1 fs2 p2 B1 D) as E2.
  assert (dedup p (fs1 ++ fs2) = dedup p fs1 ++ dedup p fs2) as E by (apply filter_app).
  rewrite (built_phases X fuel p2), E2, (built_phases X fuel p), E. apply built_phases in B1.
  destruct B1 as [[E1 ->]|(N1 & (p1 & H1 & H2) & O1)]; [rewrite E1; cbn [app]; reflexivity|].
  destruct (dedup p fs2) as [|g gs] eqn:Eg.
  - rewrite app_nil_r. split.
    + intros [[K _]|(_ & (p1' & H1' & H2') & _)]; [contradiction|]. left. split; [reflexivity|]. rewrite H1 in H1'. apply Ok_inj in H1'. injection H1' as <-.
      rewrite H2 in H2'. apply Ok_inj in H2'. injection H2' as <-. reflexivity.
    + intros [[_ ->]|(K & _)]; [|congruence]. right. split; [exact N1|]. split; [exists p1; auto|exact O1].
  - rewrite <- Eg in *. assert (dedup p fs2 <> []) as N2 by (rewrite Eg; discriminate).
    assert (Forall settled_ev (visit (offsets_of p) (dedup p fs1))) as SE.
    { apply settled_events. intros f Hf. apply ST. apply filter_In in Hf. apply Hf. }
    pose proof (calls_one_two X SO p Iv _ (dedup_unknown p fs1) p1 H1 fuel p2 H2 SE (dedup p fs2) q) as Q.
    rewrite E in Ho. rewrite Ho. unfold two_phases. rewrite Q. split.
    + intros [[K _]|(_ & K)]; [apply app_eq_nil in K; destruct K; contradiction|]. right. auto.
    + intros [[K _]|(_ & K)]; [contradiction|]. right. split; [|exact K]. intros Z. apply app_eq_nil in Z. destruct Z; contradiction.
Qed.
Print Assumptions C64_one_call.

(** So any number of accepted calls are as good as one with all the files. *)
Inductive calls (X : externs) (fuel : nat) : pool -> list (list file) -> pool -> Prop :=
| calls_none p : calls X fuel p [] p
| calls_next p fs p1 l q : build_files X fuel p fs = Built p1 -> calls X fuel p1 l q -> calls X fuel p (fs :: l) q.
Theorem C64_any_calls X fuel p l q : search_ok X -> reachable X p -> calls X fuel p l q ->
  (forall f, In f (concat l) -> settled_file f) -> plain (concat l) ->
  NoDup (map fl_name (concat l)) ->
  (forall q fs, incl fs (concat l) -> x_options X q fs = Ok true) ->
  build_files X fuel p (concat l) = Built q.
Proof.
  intros SO R C. induction C as [p|p fs p1 l q B C IH]; intros ST PL ND Ho.
  - reflexivity.
  - cbn [concat] in *. rewrite map_app in ND.
    assert (forall f g, In f fs -> In g (concat l) -> fl_name f <> fl_name g) as D.
    { intros f g Hf Hg K. apply (in_map fl_name) in Hf, Hg. rewrite K in Hf. clear - ND Hf Hg.
      induction (map fl_name fs) as [|a m IH]; [contradiction|]. cbn in ND. inversion ND as [|? ? N1 N2]; subst. destruct Hf as [-> |Hf].
      - apply N1. apply in_or_app. right. exact Hg.
      - apply IH; assumption. }
    apply (C64_one_call X fuel p fs (concat l) p1 q SO R B).
    + intros f Hf. apply ST. apply in_or_app. left. exact Hf.
    + exact D.
    + rewrite !Ho; [reflexivity| |]; intros f Hf; apply filter_In in Hf; [apply in_or_app; right|]; apply Hf.
    + unfold plain in PL. apply Forall_app in PL. destruct PL as [PL1 PL2]. apply IH.
      * exact (re_built X fuel p fs p1 R PL1 B).
      * intros f Hf. apply ST. apply in_or_app. right. exact Hf.
      * exact PL2.
      * clear - ND. induction (map fl_name fs) as [|a m IH]; [exact ND|]. apply IH. inversion ND. assumption.
      * intros q' gs Hg. apply Ho. intros f Hf. apply in_or_app. right. apply Hg. exact Hf.
Qed.
Print Assumptions C64_any_calls.

(** ** C65 *)

(** [rs] are the descriptors a pool gives back that was made by accepted calls.
    Extensions have to name the message they extend (C63 shows what happens
    otherwise). *)
Inductive kept (X : externs) (fuel : nat) : pool -> list file -> Prop :=
| kept_none : kept X fuel empty_pool []
| kept_more p rs files p' back :
    kept X fuel p rs -> plain files ->
    (forall f path scope x, In f files -> declares f path scope (IExt x) -> fp_extendee x <> None) ->
    build_files X fuel p files = Built p' -> given_back X fuel p (unknown p files) = Ok back ->
    kept X fuel p' (rs ++ back).
Lemma kept_reachable X fuel p rs : kept X fuel p rs -> reachable X p.
Proof. intros K. induction K as [|p rs files p' back K IH P E B G]; [constructor|]. exact (re_built X fuel p files p' IH P B). Qed.

Lemma two_trivial X fuel p q : two_phases X fuel p [] q <-> q = p.
Proof. split; [intros (p1 & H1 & H2); cbn in *; congruence|]. intros ->. exists p. split; reflexivity. Qed.
Lemma kept_again X fuel p rs : search_ok X -> kept X fuel p rs ->
  exists P, two_phases X fuel empty_pool rs P /\ pool_alike p P /\ Forall (full_ev (p_names P)) (visit off0 rs).
Proof.
  intros SO K. induction K as [|p rs files p' back K (P & T & A & F) PL E B G].
  - exists empty_pool. split; [apply two_trivial; reflexivity|]. split; [apply alike_refl|constructor].
  - pose proof (kept_reachable _ _ _ _ K) as R. pose proof (reachable_Inv _ _ SO R) as Iv. rewrite (unknown_dedup X p files Iv) in G.
    assert (two_phases X fuel p (dedup p files) p') as T2.
    { apply built_phases in B. destruct B as [[-> ->]|(_ & B & _)]; [apply two_trivial; reflexivity|exact B]. }
    destruct T2 as (p1 & H1 & H2). unfold given_back in G. rewrite H1 in G. cbn [rbind] in G.
    assert (extendees_named (dedup p files)) as HE by (intros f path scope x Hf; apply E; apply filter_In in Hf; apply Hf).
    destruct (out_alike X SO p Iv _ (dedup_unknown p files) p1 H1 fuel p' H2 back G HE P A) as (P1 & P2 & G1 & G2 & A1 & A2).
    pose proof (out_full X SO p Iv _ (dedup_unknown p files) p1 H1 fuel p' H2 back G) as FB.
    rewrite <- (alike_offsets _ _ A) in G1, G2, FB.
    destruct T as (E1 & T1 & T2). pose proof (reachable_Inv _ _ SO (re_empty X)) as I0.
    assert (unknown_files empty_pool rs) as U by (apply Forall_forall; reflexivity).
    assert (Forall settled_ev (visit (offsets_of empty_pool) rs)) as ST.
    { eapply Forall_impl; [|exact F]. intros e. apply full_settled. }
    exists P2. split; [|split; [exact A2|]].
    + apply (calls_one_two X SO empty_pool I0 rs U E1 T1 fuel P T2 ST back P2). exists P1. auto.
    + pose proof (calls_visit X SO empty_pool I0 rs U E1 T1 fuel P T2 back) as V. change (offsets_of empty_pool) with off0 in V. rewrite V.
      assert (p_names P2 = p_names p1) as N2.
      { rewrite <- (pa_names _ _ A2). exact (ri_names _ _ _ _ _ _ (calls_RI X SO p Iv _ (dedup_unknown p files) p1 H1 fuel p' H2)). }
      apply Forall_app. rewrite N2. split; [|exact FB]. eapply Forall_impl; [|exact F]. intros e. apply full_mono.
      pose proof (calls_NI p _ p1 H1) as NI. rewrite <- (pa_names _ _ A). intros n d Ha. apply in_assoc.
      * apply (ni_nodup _ _ _ (ni_nn _ _ _ _ NI)). exact (iv_nodup _ _ Iv).
      * apply (ni_old _ _ _ (ni_nn _ _ _ _ NI)). apply assoc_in. exact Ha.
Qed.

(** A pool made by any sequence of accepted calls can be made again in one call
    from the descriptors it gives back: the call is accepted, the pool is the
    same but for its copies of the files, and it gives back those same
    descriptors. *)
Theorem C65_made_again X fuel p rs : search_ok X -> kept X fuel p rs ->
  (forall q, x_options X q rs = Ok true) ->
  exists P, build_files X fuel empty_pool rs = Built P /\ pool_alike p P /\ p_tables P = p_tables p /\
    given_back X fuel empty_pool rs = Ok rs.
Proof.
  intros SO K Ho. destruct (kept_again X fuel p rs SO K) as (P & T & A & F). exists P. pose proof (reachable_Inv _ _ SO (re_empty X)) as I0.
  assert (unknown_files empty_pool rs) as U by (apply Forall_forall; reflexivity).
  assert (dedup empty_pool rs = rs) as D by (clear; induction rs as [|f rs IH]; [reflexivity|]; change (f :: dedup empty_pool rs = f :: rs); rewrite IH; reflexivity).
  split; [|split; [exact A|split]].
  - apply built_phases. rewrite D. destruct rs as [|f rs]; [left; split; [reflexivity|]; apply two_trivial in T; exact T|]. right. split; [discriminate|]. auto.
  - unfold p_tables. rewrite (pa_msgs _ _ A), (pa_enums _ _ A), (pa_exts _ _ A). reflexivity.
  - destruct T as (p1 & H1 & H2). apply (full_back X SO empty_pool I0 rs U p1 H1 fuel P H2).
    pose proof (ri_names _ _ _ _ _ _ (calls_RI X SO empty_pool I0 rs U p1 H1 fuel P H2)) as N. rewrite N in F. exact F.
Qed.
Print Assumptions C65_made_again.

(** ** Not vacuous *)

(** the two example files: the references of the first are without a dot or
    absolute *)
Lemma settled_one f : Forall settled_ev (visit off0 [f]) -> settled_file f.
Proof.
  intros F path scope it D. apply (declared_visited [f] off0 0 f) in D; [|reflexivity]. destruct D as (e & He & _ & _ & _ & Q).
  rewrite Forall_forall in F. specialize (F _ He). destruct e; cbn in Q; try discriminate; injection Q as <-; exact F.
Qed.
Ltac no_dot := right; vm_compute; intros Q; repeat (destruct Q as [Q|Q]; [discriminate|]); exact Q.
Ltac with_dot := left; eexists; reflexivity.
Lemma settled_ab : settled_file file_ab.
Proof.
  apply settled_one. vm_compute visit.
  repeat (first [apply Forall_cons | apply Forall_nil]); cbn [settled_ev fp_type_name mp_input mp_output]; repeat split; first [with_dot|no_dot|exact Logic.I].
Qed.
Example C64_ab_cd : build_files demo_externs 10 empty_pool ([file_ab] ++ [file_cd]) = Built pool_abcd.
Proof.
  apply (C64_one_call demo_externs 10 empty_pool [file_ab] [file_cd] pool_ab pool_abcd demo_search (re_empty _)).
  - vm_compute. reflexivity.
  - intros f [<- |[]]. exact settled_ab.
  - intros f g [<- |[]] [<- |[]]. discriminate.
  - reflexivity.
  - exact built_abcd.
Qed.
Lemma kept_abcd : kept demo_externs 10 pool_abcd (back_ab ++ back_cd).
Proof.
  apply (kept_more _ _ pool_ab back_ab [file_cd] pool_abcd back_cd).
  - rewrite <- (app_nil_l back_ab). apply (kept_more _ _ empty_pool [] [file_ab] pool_ab back_ab).
    + apply kept_none.
    + repeat constructor. discriminate.
    + intros f path scope x [<- |[]] D. exfalso. apply (declared_visited [file_ab] off0 0 file_ab) in D; [|reflexivity]. destruct D as (e & He & _ & _ & _ & Q).
      assert (Forall (fun e => match ev_item e with Some (IExt x) => False | _ => True end) (visit off0 [file_ab])) as F by (vm_compute; repeat constructor).
      rewrite Forall_forall in F. specialize (F _ He). rewrite Q in F. exact F.
    + vm_compute. reflexivity.
    + vm_compute. reflexivity.
  - repeat constructor. discriminate.
  - intros f path scope x [<- |[]]. apply file_cd_exts.
  - exact built_abcd.
  - vm_compute. reflexivity.
Qed.
Example C65_abcd : exists P, build_files demo_externs 10 empty_pool (back_ab ++ back_cd) = Built P /\ pool_alike pool_abcd P /\
  p_tables P = p_tables pool_abcd /\ given_back demo_externs 10 empty_pool (back_ab ++ back_cd) = Ok (back_ab ++ back_cd).
Proof. apply (C65_made_again demo_externs 10 pool_abcd _ demo_search kept_abcd). reflexivity. Qed.

(** ** References with dots *)

(** With a reference that has dots and is not absolute the number of calls
    matters.  A message of package [a] has a field of type [b.C] of package
    [b], which its file imports.  A third file, which nobody imports, is in the
    package [a.b].  Given in two calls the files are accepted, given in one
    they are not; nor are they when the third comes earlier. *)
Definition dots_b : file := File (b "b.proto") (b "b") [] [] [] [DP (b "C") [] [] [] [] [] [] false []] [] [] [] None.
Definition dots_a : file :=
  File (b "a.proto") (b "a") [b "b.proto"] [] [] [DP (b "M") [fld "c" 1 Optional TMessage "b.C"] [] [] [] [] [] false []] [] [] [] None.
Definition dots_ab : file := File (b "ab.proto") (b "a.b") [] [] [] [] [] [] [] None.
Theorem C64_refuted_dots :
  (exists p2 q, build_files demo_externs 10 empty_pool [dots_b; dots_a] = Built p2 /\ build_files demo_externs 10 p2 [dots_ab] = Built q) /\
  build_files demo_externs 10 empty_pool ([dots_b; dots_a] ++ [dots_ab]) = Rejected empty_pool [at_spot (1%nat, [4; 0; 2; 0; 6]%Z) (ErrShadowed (b "b.C"))] /\
  (exists p2, build_files demo_externs 10 empty_pool [dots_b; dots_ab] = Built p2 /\
     build_files demo_externs 10 p2 [dots_a] = Rejected p2 [at_spot (2%nat, [4; 0; 2; 0; 6]%Z) (ErrShadowed (b "b.C"))]).
Proof.
  split; [|split].
  - destruct (build_files demo_externs 10 empty_pool [dots_b; dots_a]) as [p2| | |] eqn:F; vm_compute in F; try discriminate.
    exists p2. injection F as <-. eexists. split; [reflexivity|]. vm_compute. reflexivity.
  - vm_compute. reflexivity.
  - destruct (build_files demo_externs 10 empty_pool [dots_b; dots_ab]) as [p2| | |] eqn:F; vm_compute in F; try discriminate.
    exists p2. injection F as <-. split; [reflexivity|]. vm_compute. reflexivity.
Qed.
Print Assumptions C64_refuted_dots.
