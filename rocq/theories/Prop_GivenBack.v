(** The descriptors a pool gives back (C63). *)
From Coq Require Import String.
From Verif Require Import Base BaseProofs Value Descr Proto Build VisitProofs EventProofs BuildFrame BuildNames BuildQuiet BuildResolve BuildInv BuildSafe DeclSpec DeclProofs PoolFacts ExampleFiles PoolMembers ResolveSpec Prop_Resolve Prop_Accepts ValidSpec AcceptSteps AcceptNames AcceptRefs AcceptResolve AcceptVisible Raw RawSpec RawPlaces RawWalk RawAgain RawTrack RawBack.
From Coq Require Import List Lia ZArith NArith.
Import ListNotations.
Local Open Scope list_scope.

Lemma quiet_phases X fuel p fs v : build_deduped X fuel p fs = Ok v -> v_errs v = [] ->
  exists p1, fold_res names_step (visit (offsets_of p) fs) (V p []) = Ok (V p1 []) /\
    fold_res (resolve_step X fuel) (visit (offsets_of p) fs) (V p1 []) = Ok (V (v_pool v) []).
Proof.
  intros H Q. unfold build_deduped in H. apply rbind_ok in H. destruct H as [[p1 e1] [H1 H]].
  assert (e1 = []) as -> by (cbn [v_errs] in H; destruct e1; [reflexivity|]; inversion H; subst; discriminate).
  cbn [v_errs] in H. apply rbind_ok in H. destruct H as [[p2 e2] [H2 H]].
  assert (e2 = []) as -> by (cbn [v_errs] in H; destruct e2; [reflexivity|]; inversion H; subst; discriminate).
  cbn [v_errs v_pool] in H. apply rbind_ok in H. destruct H as [ok [Ho H]]. destruct ok.
  - apply Ok_inj in H. subst v. exists p1. auto.
  - unfold push_err in H. cbn in H. apply Ok_inj in H. subst v. discriminate.
Qed.
Lemma given_none X fuel p : given_back X fuel p [] = Ok [].
Proof. reflexivity. Qed.

(** ** C63 *)

(** The descriptors of new files that the pool gives back are the files as they
    were given, except that references are full names with a leading dot and
    say what the pool shows, and that the JSON names are there. *)
Theorem C63_given_back X fuel p files p' : search_ok X -> reachable X p ->
  build_files X fuel p files = Built p' ->
  exists back, given_back X fuel p (unknown p files) = Ok back /\
    length back = length (unknown p files) /\
    forall j f f', nth_error (unknown p files) j = Some f -> nth_error back j = Some f' ->
      file_given p' (length (pool_files p) + j) f f'.
Proof.
  intros SO R H. pose proof (reachable_Inv _ _ SO R) as I. pose proof (unknown_dedup X p files I) as E.
  apply build_built in H. rewrite <- E in H. destruct H as [[H _]|[_ (v & H & Q & ->)]].
  - rewrite H. exists []. split; [reflexivity|]. split; [reflexivity|]. intros [|j] f f' Hf; discriminate.
  - assert (unknown_files p (unknown p files)) as U by (rewrite E; apply dedup_unknown).
    destruct (quiet_phases _ _ _ _ _ H Q) as (p1 & H1 & H2).
    destruct (raws_defined X fuel (length (p_files p)) _ _ _ (unknown p files) H2) as (out & HO). exists out.
    split; [unfold given_back; rewrite H1; exact HO|]. split.
    + apply (f_equal (@length file)) in E. pose proof (f_equal (@length file) (raws_blank X fuel _ _ _ _ _ HO)) as L. rewrite !map_length in L. exact L.
    + intros j f f' Hf Hf'. pose proof (back_given X SO p I _ U p1 H1 fuel (v_pool v) H2 out HO j f f' Hf Hf') as G.
      unfold pool_files. rewrite map_length. exact G.
Qed.
Print Assumptions C63_given_back.

(** Given those descriptors in the place of the files, the pool would have been
    the same, and it gives them back as they are.  An extension has to name the
    message it extends: see below. *)
Theorem C63_same_pool X fuel p files p' back : search_ok X -> reachable X p ->
  build_files X fuel p files = Built p' ->
  given_back X fuel p (unknown p files) = Ok back ->
  (forall f path scope x, In f files -> declares f path scope (IExt x) -> fp_extendee x <> None) ->
  (forall q, x_options X q back = Ok true) ->
  exists p'', build_files X fuel p back = Built p'' /\ pool_alike p' p'' /\ p_tables p'' = p_tables p' /\
    given_back X fuel p back = Ok back.
Proof.
  intros SO R H HB HE Ho. pose proof (reachable_Inv _ _ SO R) as I. pose proof (unknown_dedup X p files I) as E.
  apply build_built in H. rewrite <- E in H. destruct H as [[H ->]|[_ (v & H & Q & ->)]].
  - rewrite H in HB. injection HB as <-. exists p. split; [reflexivity|]. split; [apply alike_refl|]. split; reflexivity.
  - assert (unknown_files p (unknown p files)) as U by (rewrite E; apply dedup_unknown).
    destruct (quiet_phases _ _ _ _ _ H Q) as (p1 & H1 & H2). unfold given_back in HB. rewrite H1 in HB. cbn [rbind] in HB.
    assert (extendees_named (unknown p files)) as HE' by (intros f path scope x Hf; apply HE; apply filter_In in Hf; apply Hf).
    destruct (back_again X SO p I _ U p1 H1 fuel (v_pool v) H2 back HB HE') as (q1 & q2 & G1 & G2 & A1 & A2).
    exists q2. assert (filter (fun f => match assoc_s (fl_name f) (p_file_names p) with Some _ => false | None => true end) back = back) as Fl.
    { pose proof (back_unknown X p _ U p1 fuel back HB) as Ub. unfold unknown_files in Ub. clear - Ub.
      induction Ub as [|f l Hf Ub IH]; [reflexivity|]. cbn [filter]. rewrite Hf, IH. reflexivity. }
    split; [|split; [exact A2|split]].
    + unfold build_files. rewrite Fl. destruct back as [|b0 back]; [cbn in G1, G2|].
      * apply Ok_inj in G1. injection G1 as <-. apply Ok_inj in G2. injection G2 as <-. reflexivity.
      * unfold build_deduped. rewrite G1. cbn [rbind v_errs]. rewrite G2. cbn [rbind v_errs v_pool]. rewrite Ho. reflexivity.
    + unfold p_tables. rewrite (pa_msgs _ _ A2), (pa_enums _ _ A2), (pa_exts _ _ A2). reflexivity.
    + exact (back_fixed X SO p I _ U p1 H1 fuel (v_pool v) H2 back HB q1 q2 G1 G2 A1 A2).
Qed.
Print Assumptions C63_same_pool.

(** Not vacuous: the two example files.  The references of the first are
    relative, those of the second look into a file given before. *)
Definition back_ab : list file := match given_back demo_externs 10 empty_pool [file_ab] with Ok l => l | _ => [] end.
Definition back_cd : list file := match given_back demo_externs 10 pool_ab [file_cd] with Ok l => l | _ => [] end.
Definition full_fld (name : string) (num : Z) (l : card) (ty : ptype) (tn json : string) : fproto :=
  FP (b name) None num l ty (b tn) None None (Some (b json)) None false.
Example C63_ab_back : given_back demo_externs 10 empty_pool [file_ab] = Ok
  [File (b "ab.proto") (b "a.b") [] [] []
    [DP (b "M")
        [full_fld "foo_bar" 1 Optional TInt32 "" "fooBar"; full_fld "self" 2 Repeated TMessage ".a.b.M" "self";
         full_fld "in" 3 Optional TMessage ".a.b.M.Inner" "in"; full_fld "e" 4 Optional TEnum ".a.b.E" "e";
         FP (b "x") None 5 Optional TString [] (Some (b "dflt")) (Some 0%Z) (Some (b "x")) None false]
        [] [DP (b "Inner") [full_fld "v" 1 Optional TBytes "" "v"] [] [] [] [] [] false []]
        [EP (b "Kind") [(b "K0", 0%Z); (b "K1", 1%Z)] [] None]
        [(100, 200)%Z] [b "choice"] false [(50, 60)%Z]]
    [EP (b "E") [(b "E_TWO", 2%Z); (b "E_ZERO", 0%Z); (b "E_TWO_AGAIN", 2%Z)] [(7, 9)%Z] (Some (true, []))]
    [SP (b "S") [MP (b "Do") (b ".a.b.M") (b ".a.b.M.Inner")]]
    [] (Some b_proto2)].
Proof. vm_compute. reflexivity. Qed.
Example C63_cd_back : given_back demo_externs 10 pool_ab [file_cd] = Ok
  [File (b "cd.proto") (b "c") [b "ab.proto"] [] []
    [DP (b "N") [full_fld "m" 1 Optional TMessage ".a.b.M" "m"] [] [] [] [] [] false []]
    [] []
    [FP (b "ext1") (Some (b ".a.b.M")) 100 Optional TInt32 [] None None (Some (b "ext1")) None false;
     FP (b "ext2") (Some (b ".a.b.M")) 101 Repeated TMessage (b ".c.N") None None (Some (b "ext2")) None false]
    None].
Proof. vm_compute. reflexivity. Qed.
Lemma file_cd_exts path scope x : declares file_cd path scope (IExt x) -> fp_extendee x <> None.
Proof.
  intros D. apply (declared_visited [file_cd] (offsets_of pool_ab) 0 file_cd) in D; [|reflexivity]. destruct D as (e & He & _ & _ & _ & Q).
  assert (Forall (fun e => match ev_item e with Some (IExt x) => fp_extendee x <> None | _ => True end) (visit (offsets_of pool_ab) [file_cd])) as F
    by (vm_compute; repeat constructor; discriminate).
  rewrite Forall_forall in F. specialize (F _ He). rewrite Q in F. exact F.
Qed.
Example C63_cd_same : exists p'', build_files demo_externs 10 pool_ab back_cd = Built p'' /\ pool_alike pool_abcd p'' /\
  p_tables p'' = p_tables pool_abcd /\ given_back demo_externs 10 pool_ab back_cd = Ok back_cd.
Proof.
  apply (C63_same_pool demo_externs 10 pool_ab [file_cd] pool_abcd back_cd demo_search reach_ab built_abcd).
  - vm_compute. reflexivity.
  - intros f path scope x [<- |[]]. apply file_cd_exts.
  - reflexivity.
Qed.

(** An extension that does not name the message it extends refers to the empty
    name.  A file with a message of that name is accepted, although the number
    of the extension is outside the extension ranges; the descriptor given back
    names the extendee and is rejected. *)
Definition odd_file : file :=
  File (b "odd.proto") [] [] [] [] [DP [] [] [] [] [] [] [] false []] [] []
    [FP (b "x") None 1 Optional TInt32 [] None None None None false] None.
Definition odd_back : list file := match given_back demo_externs 10 empty_pool [odd_file] with Ok l => l | _ => [] end.
Example C63_unnamed_extendee :
  (exists p', build_files demo_externs 10 empty_pool [odd_file] = Built p') /\
  given_back demo_externs 10 empty_pool [odd_file] = Ok odd_back /\
  (exists q es, build_files demo_externs 10 empty_pool odd_back = Rejected q es).
Proof.
  split; [|split].
  - destruct (build_files demo_externs 10 empty_pool [odd_file]) as [p'| | |] eqn:F; vm_compute in F; try discriminate. eauto.
  - vm_compute. reflexivity.
  - destruct (build_files demo_externs 10 empty_pool odd_back) as [p'|q es| |] eqn:F; vm_compute in F; try discriminate. eauto.
Qed.
