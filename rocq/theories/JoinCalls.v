(** The two phases of one call for all files against those of two calls
    (for C64). *)
From Verif Require Import Base BaseProofs Value Descr Proto Build VisitProofs EventProofs BuildFrame BuildNames BuildQuiet BuildResolve BuildInv BuildSafe AcceptResolve Join JoinAhead.
From Coq Require Import List Lia Bool Arith.
Import ListNotations.
Local Open Scope list_scope.
Local Open Scope N_scope.

Lemma in_assoc {A} k (a : A) l : NoDup (map fst l) -> In (k, a) l -> assoc_s k l = Some a.
Proof.
  induction l as [|[k' a'] l IH]; intros N I; [contradiction|]. cbn. inversion N; subst. destruct I as [I|I].
  - injection I as -> ->. rewrite bytes_eqb_refl. reflexivity.
  - destruct (bytes_eqb k k') eqn:E; [|apply IH; assumption]. apply bytes_eqb_eq in E. subst k'.
    exfalso. match goal with H : ~ In _ _ |- _ => apply H end. apply (in_map fst) in I. exact I.
Qed.
Lemma assoc_in {A} k (a : A) l : assoc_s k l = Some a -> In (k, a) l.
Proof.
  induction l as [|[k' a'] l IH]; cbn; [discriminate|]. destruct (bytes_eqb k k') eqn:E; intros H.
  - apply bytes_eqb_eq in E. injection H as ->. subst. left. reflexivity.
  - right. apply IH. exact H.
Qed.

Lemma fold_res_app {A S} (g : A -> S -> res S) a b s : fold_res g (a ++ b) s = rbind (fold_res g a s) (fold_res g b).
Proof. revert s. induction a as [|x a IH]; intros s; [reflexivity|]. cbn [app fold_res]. destruct (g x s); try reflexivity. apply IH. Qed.

Section Calls.
Context (X : externs) (SO : search_ok X) (p : pool) (I : Inv X p) (fs1 : list file) (U1 : unknown_files p fs1).
Let o := offsets_of p.
Let evs1 := visit o fs1.
Context (p1 : pool) (H1 : fold_res names_step evs1 (V p []) = Ok (V p1 [])).
Context (fuel : nat) (p2 : pool) (H2 : fold_res (resolve_step X fuel) evs1 (V p1 []) = Ok (V p2 [])).
Context (ST : Forall settled_ev evs1).


Lemma calls_RI : RI X o p1 evs1 evs1 p2.
Proof. exact (resolve_prefix X SO p I fs1 U1 p1 H1 fuel evs1 [] p2 (eq_sym (app_nil_r _)) H2). Qed.
Lemma calls_NI : NI o p evs1 p1.
Proof. exact (names_phase _ _ _ H1). Qed.

Lemma calls_sizes : length (p_files p2) = length (p_files p1) /\ length (p_messages p2) = length (p_messages p1) /\
  length (p_enums p2) = length (p_enums p1) /\ offsets_of p2 = adv o evs1.
Proof.
  pose proof calls_RI as R. pose proof calls_NI as NI.
  pose proof (f_equal (@length _) (ri_raws _ _ _ _ _ _ R)) as A. unfold raws in A. rewrite !map_length in A.
  pose proof (f_equal (@length _) (ri_mids _ _ _ _ _ _ R)) as B. unfold mids in B. rewrite !map_length in B.
  pose proof (f_equal (@length _) (ri_eids _ _ _ _ _ _ R)) as C. unfold eids in C. rewrite !map_length in C.
  repeat (split; [assumption|]). unfold offsets_of. rewrite A, B, C, (ri_nexts _ _ _ _ _ _ R), (ri_nsvcs _ _ _ _ _ _ R).
  rewrite (ni_nfiles _ _ _ _ _ (ni_nf _ _ _ _ NI)), (ni_nmsgs _ _ _ _ (ni_nm _ _ _ _ NI)), (ni_nenums _ _ _ _ (ni_ne _ _ _ _ NI)).
  destruct (adv o evs1). reflexivity.
Qed.
Lemma calls_visit fs2 : visit o (fs1 ++ fs2) = evs1 ++ visit (offsets_of p2) fs2.
Proof. destruct calls_sizes as (_ & _ & _ & ->). apply visit_app. Qed.

(** the first names phase seen as a graft *)
Lemma old_files : p_files p1 = p_files p ++ skipn (length (p_files p)) (p_files p1).
Proof.
  assert (vgraft p (V p []) = V p []) as G.
  { unfold vgraft, graft. cbn. rewrite !skipn_all, !app_nil_r. destruct p; reflexivity. }
  assert (wide p p) as W by (unfold wide; lia).
  assert (Forall (beyond p) evs1) as B.
  { eapply Forall_impl; [|apply visit_fresh]. intros e F. destruct e; cbn in *; try tauto; lia. }
  pose proof (names_graft p evs1 B (V p []) W) as E. rewrite G, H1 in E. cbn in E. injection E as E. rewrite E at 1. reflexivity.
Qed.
Let n := length (p_files p1).

Lemma low_fnames s i : assoc_s s (p_file_names p1) = Some i -> (i < n)%nat.
Proof.
  intros H. apply assoc_in in H. unfold n. rewrite (ni_fnames _ _ _ _ _ (ni_nf _ _ _ _ calls_NI)) in H.
  rewrite (ni_nfiles _ _ _ _ _ (ni_nf _ _ _ _ calls_NI)).
  apply in_app_or in H. destruct H as [H|H].
  - pose proof (ba_fnames _ (Inv_base X p I)) as F. unfold fnames_ok in F. rewrite Forall_forall in F. specialize (F _ H). cbn in F.
    destruct (off_le_adv o evs1) as (L & _). cbn in L. lia.
  - apply in_flat_map in H. destruct H as (e & He & H). destruct e; cbn in H; try contradiction. destruct H as [H|[]]. injection H as _ ->.
    apply (file_index_range _ _ _ _ _ (visit_scoped o fs1)) in He. fold evs1 in He. lia.
Qed.
Lemma reach_low rs a x : (a < n)%nat -> pub_reach (p_file_names p1) rs a x -> (x < n)%nat.
Proof.
  intros L H. induction H as [a|a c x (f & j & d & _ & _ & _ & D) _ IH]; [exact L|]. apply IH. exact (low_fnames _ _ D).
Qed.
Lemma deps_low i f deps trans : (i < n)%nat -> deps_spec (p_file_names p1) (raws p1) i f deps trans -> low n trans.
Proof.
  intros L D. apply Forall_forall. intros x Hx. destruct (ds_sound _ _ _ _ _ _ D x Hx) as [->|(j & Hj & R)]; [exact L|].
  eapply reach_low; [|exact R]. destruct (In_nth_error _ _ Hj) as (k & Hk).
  destruct (F2_nth_r _ _ _ (ds_deps _ _ _ _ _ _ D) _ _ Hk) as (d & _ & E). exact (low_fnames _ _ E).
Qed.
Lemma fn_older d j : assoc_s d (p_file_names p) = Some j -> assoc_s d (p_file_names p1) = Some j.
Proof. rewrite (ni_fnames _ _ _ _ _ (ni_nf _ _ _ _ calls_NI)). apply assoc_app_l. Qed.
Lemma raws_both : raws p1 = raws p ++ fs1.
Proof. destruct (names_ready X p fs1 p1 I U1 H1) as (_ & R & _). exact R. Qed.

Lemma calls_early : early n (p_names p1) (p_file_names p1) (raws p1) p1.
Proof.
  split; [reflexivity|]. split; [reflexivity|]. split; [reflexivity|].
  apply Forall_forall. intros g Hg. destruct (In_nth_error _ _ Hg) as (i & Hi).
  destruct (Nat.lt_ge_cases i (length (p_files p))) as [L|L].
  - rewrite old_files, nth_error_app1 in Hi by exact L.
    assert (nth_error (raws p) i = Some (fi_raw g)) as Hr by (apply nth_map_some; exists g; auto).
    destruct (iv_files _ _ I _ _ _ (file_event p i _ Hr)) as (sy & deps & trans & _ & E & D).
    rewrite Hi in E. apply Some_inj in E. rewrite E. cbn [fi_trans]. clear E.
    assert (length (p_files p) <= n)%nat as LN by (unfold n; rewrite old_files, app_length; lia).
    apply Forall_forall. intros x Hx. destruct (ds_sound _ _ _ _ _ _ D x Hx) as [->|(j & Hj & R)]; [lia|].
    destruct (In_nth_error _ _ Hj) as (k & Hk).
    destruct (F2_nth_r _ _ _ (ds_deps _ _ _ _ _ _ D) _ _ Hk) as (d & _ & E).
    apply (reach_low (raws p1) j); [exact (low_fnames _ _ (fn_older _ _ E))|].
    eapply reach_mono; [exact fn_older| |exact R]. intros m y Hy. rewrite raws_both, nth_error_app1; [exact Hy|]. apply nth_error_Some. congruence.
  - assert (nth_error (raws p1) i = Some (fi_raw g)) as Hr by (apply nth_map_some; exists g; auto).
    rewrite raws_both, nth_error_app2 in Hr by (unfold raws; rewrite map_length; exact L).
    pose proof (visit_files_all _ o _ _ Hr) as He. fold evs1 in He.
    destruct (ni_files _ _ _ _ _ (ni_nf _ _ _ _ calls_NI) _ _ _ He) as (sy & _ & E).
    unfold o, raws in E. cbn in E. rewrite map_length in E. replace (length (p_files p) + (i - length (p_files p)))%nat with i in E by lia.
    rewrite Hi in E. apply Some_inj in E. rewrite E. constructor.
Qed.
Lemma calls_closed f d : In f (raws p1) -> In d (fl_deps f) -> assoc_s d (p_file_names p1) <> None.
Proof.
  intros Hf Hd. rewrite raws_both in Hf. apply in_app_or in Hf. destruct (In_nth_error _ _ Hd) as (k & Hk). destruct Hf as [Hf|Hf].
  - destruct (In_nth_error _ _ Hf) as (i & Hi). destruct (iv_files _ _ I _ _ _ (file_event p i _ Hi)) as (sy & deps & trans & _ & _ & D).
    destruct (F2_nth_l _ _ _ (ds_deps _ _ _ _ _ _ D) _ _ Hk) as (j & _ & E). rewrite (fn_older _ _ E). discriminate.
  - destruct (In_nth_error _ _ Hf) as (i & Hi). pose proof (visit_files_all _ o _ _ Hi) as He. fold evs1 in He.
    destruct (ri_files _ _ _ _ _ _ calls_RI _ _ _ He) as (sy & deps & trans & _ & _ & D).
    destruct (F2_nth_l _ _ _ (ds_deps _ _ _ _ _ _ D) _ _ Hk) as (j & _ & E). rewrite (ri_fnames _ _ _ _ _ _ calls_RI) in E. rewrite E. discriminate.
Qed.

Section Second.
Context (fs2 : list file).
Let evs2 := visit (offsets_of p2) fs2.

Lemma second_beyond : Forall (beyond p2) evs2.
Proof. eapply Forall_impl; [|apply visit_fresh]. intros e F. destruct e; cbn in *; try tauto; lia. Qed.
Lemma second_graft : fold_res names_step evs2 (V p2 []) = rmap (vgraft p2) (fold_res names_step evs2 (V p1 [])).
Proof.
  destruct calls_sizes as (L1 & L2 & L3 & _).
  assert (vgraft p2 (V p1 []) = V p2 []) as G.
  { unfold vgraft, graft. cbn. rewrite L1, L2, L3, !skipn_all, !app_nil_r, <- (ri_names _ _ _ _ _ _ calls_RI), <- (ri_fnames _ _ _ _ _ _ calls_RI). destruct p2; reflexivity. }
  rewrite <- G. apply names_graft; [exact second_beyond|]. unfold wide. cbn. lia.
Qed.
Lemma first_graft q3 : fold_res names_step evs2 (V p1 []) = Ok (V q3 []) -> graft p1 q3 = q3 /\ p_exts q3 = p_exts p1 /\ p_services q3 = p_services p1.
Proof.
  intros H. destruct calls_sizes as (L1 & L2 & L3 & _).
  assert (vgraft p1 (V p1 []) = V p1 []) as G.
  { unfold vgraft, graft. cbn. rewrite !skipn_all, !app_nil_r. destruct p1; reflexivity. }
  assert (Forall (beyond p1) evs2) as B.
  { eapply Forall_impl; [|exact second_beyond]. intros e F. unfold beyond in *. rewrite <- L1, <- L2, <- L3. exact F. }
  assert (wide p1 p1) as W by (unfold wide; lia).
  pose proof (names_graft p1 evs2 B (V p1 []) W) as E. rewrite G, H in E. cbn in E. apply Ok_inj in E. injection E as E.
  split; [symmetry; exact E|]. split; rewrite E; reflexivity.
Qed.
Lemma second_agree p3 : fold_res names_step evs2 (V p2 []) = Ok (V p3 []) -> agree n (p_names p1) (p_names p3).
Proof.
  intros H. pose proof (ni_nn _ _ _ _ (names_phase _ _ _ H)) as NN. fold evs2 in NN. pose proof (ri_names _ _ _ _ _ _ calls_RI) as EN.
  assert (NoDup (map fst (p_names p1))) as ND by exact (ni_nodup _ _ _ (ni_nn _ _ _ _ calls_NI) (iv_nodup _ _ I)).
  assert (NoDup (map fst (p_names p3))) as ND3 by (apply (ni_nodup _ _ _ NN); rewrite EN; exact ND).
  destruct calls_sizes as (L1 & _).
  intros s. destruct (assoc_s s (p_names p1)) as [d|] eqn:E1.
  - left. apply in_assoc; [exact ND3|]. apply (ni_old _ _ _ NN). rewrite EN. apply assoc_in. exact E1.
  - destruct (assoc_s s (p_names p3)) as [d|] eqn:E3; [|left; reflexivity]. right. split; [reflexivity|]. exists d. split; [reflexivity|].
    assert (In (s, d) (p_names p2) -> False) as NO.
    { rewrite EN. intros Q. apply (in_assoc _ _ _ ND) in Q. congruence. }
    apply assoc_in in E3. unfold n. rewrite <- L1. change (length (p_files p2)) with (of_file (offsets_of p2)).
    destruct (is_package (d_kind d)) eqn:K.
    + assert (d_kind d = DPackage) as K' by (destruct (d_kind d); try discriminate; reflexivity).
      destruct (ni_pkg1 _ _ _ NN _ _ E3 K') as [Q|(path & i & f & Q & _ & ->)]; [destruct (NO Q)|].
      apply (file_index_range _ _ _ _ _ (visit_scoped _ fs2)) in Q. lia.
    + assert (In (s, d) (filter nonpkg (p_names p3))) as Q by (apply filter_In; split; [exact E3|]; unfold nonpkg; cbn; rewrite K; reflexivity).
      rewrite (ni_defs _ _ _ NN) in Q. apply in_app_or in Q. destruct Q as [Q|Q]; [|apply filter_In in Q; destruct (NO (proj1 Q))].
      apply in_rev in Q. apply in_flat_map in Q. destruct Q as (e & He & Q). pose proof (visit_fresh (offsets_of p2) fs2) as F. rewrite Forall_forall in F. specialize (F e He).
      destruct e; cbn in Q; try contradiction; destruct Q as [Q|[]]; injection Q as <- <-; cbn [d_file]; cbn [fresh_ev] in F; tauto.
Qed.

(** The names of later files first or last: the same pool. *)
Lemma calls_join q3 : fold_res names_step evs2 (V p1 []) = Ok (V q3 []) ->
  exists p3, fold_res names_step evs2 (V p2 []) = Ok (V p3 []) /\ fold_res (resolve_step X fuel) evs1 (V q3 []) = Ok (V p3 []).
Proof.
  intros H. destruct calls_sizes as (L1 & L2 & L3 & _). destruct (first_graft q3 H) as (G & GX & GS).
  exists (graft p2 q3). assert (fold_res names_step evs2 (V p2 []) = Ok (V (graft p2 q3) [])) as N2 by (rewrite second_graft, H; reflexivity).
  split; [exact N2|].
  set (N3 := p_names q3). set (F3 := p_file_names q3).
  set (TF := skipn (length (p_files p1)) (p_files q3)). set (TM := skipn (length (p_messages p1)) (p_messages q3)). set (TE := skipn (length (p_enums p1)) (p_enums q3)).
  assert (q3 = ahead N3 F3 TF TM TE p1) as Eq by (rewrite <- G at 1; reflexivity).
  assert (graft p2 q3 = ahead N3 F3 TF TM TE p2) as Er by (unfold graft, ahead; rewrite L1, L2, L3; reflexivity).
  rewrite Er. rewrite Eq at 1.
  assert (agree n (p_names p1) N3) as AG by exact (second_agree _ N2).
  assert (forall s i, assoc_s s (p_file_names p1) = Some i -> assoc_s s F3 = Some i) as FA.
  { intros s i E. pose proof (ni_fnames _ _ _ _ _ (ni_nf _ _ _ _ (names_phase _ _ _ N2))) as Q. change (p_file_names (graft p2 q3)) with F3 in Q. rewrite Q.
    apply assoc_app_l. rewrite (ri_fnames _ _ _ _ _ _ calls_RI). exact E. }
  assert (Forall (early_ev n) evs1) as EE.
  { apply Forall_forall. intros e He. destruct e; cbn; auto. apply (file_index_range _ _ _ _ _ (visit_scoped o fs1)) in He. fold evs1 in He.
    unfold n. rewrite (ni_nfiles _ _ _ _ _ (ni_nf _ _ _ _ calls_NI)). lia. }
  refine (proj2 (resolve_ahead X n (p_names p1) N3 (p_file_names p1) F3 (raws p1) TF TM TE AG FA low_fnames calls_closed fuel evs1 ST EE p1 p2 calls_early H2)).
Qed.
Lemma calls_split p3 : fold_res names_step evs2 (V p2 []) = Ok (V p3 []) -> exists q3, fold_res names_step evs2 (V p1 []) = Ok (V q3 []).
Proof.
  intros H. rewrite second_graft in H. destruct (fold_res names_step evs2 (V p1 [])) as [[q3 es]| | |]; try discriminate.
  cbn in H. apply Ok_inj in H. injection H as _ ->. exists q3. reflexivity.
Qed.

Lemma both_names q3 : fold_res names_step (visit o (fs1 ++ fs2)) (V p []) = Ok (V q3 []) <-> fold_res names_step evs2 (V p1 []) = Ok (V q3 []).
Proof.
  rewrite calls_visit. fold evs2. rewrite fold_res_app, H1. reflexivity.
Qed.
(** the phases of one call are quiet when those of the second call are, and end in the same pool *)
Lemma calls_one_two q : 
  (exists q3, fold_res names_step (visit o (fs1 ++ fs2)) (V p []) = Ok (V q3 []) /\
              fold_res (resolve_step X fuel) (visit o (fs1 ++ fs2)) (V q3 []) = Ok (V q [])) <->
  (exists p3, fold_res names_step evs2 (V p2 []) = Ok (V p3 []) /\ fold_res (resolve_step X fuel) evs2 (V p3 []) = Ok (V q [])).
Proof.
  rewrite calls_visit. fold evs2. split.
  - intros (q3 & A & B). rewrite fold_res_app, H1 in A. cbn [rbind] in A. destruct (calls_join q3 A) as (p3 & C & D).
    rewrite fold_res_app, D in B. cbn [rbind] in B. exists p3. auto.
  - intros (p3 & A & B). destruct (calls_split p3 A) as (q3 & C). destruct (calls_join q3 C) as (p3' & D & E).
    rewrite A in D. apply Ok_inj in D. injection D as <-. exists q3. rewrite !fold_res_app, H1, E. auto.
Qed.
End Second.
End Calls.
