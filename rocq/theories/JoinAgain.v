(** Files whose references are written out, and the pool made again from the
    files it gives back (for C65). *)
From Verif Require Import Base BaseProofs Value Descr Proto Build VisitProofs EventProofs BuildFrame BuildNames BuildQuiet BuildResolve BuildInv BuildSafe DeclSpec DeclProofs PoolFacts ResolveSpec AcceptNames AcceptResolve Raw RawSpec RawPlaces RawWalk RawAgain RawTrack RawBack JoinSpec Join JoinAhead JoinCalls.
From Coq Require Import List Lia ZArith NArith.
Import ListNotations.
Local Open Scope list_scope.

(** ** References written out *)
Definition full_ref (b : str) : Prop := exists n, b = dot :: n.
Definition full_type (N : list (str * def)) (x : fproto) : Prop :=
  fp_type_name x = [] \/
  exists n d, fp_type_name x = dot :: n /\ assoc_s n N = Some d /\ fp_type x = match fp_type x with TGroup => TGroup | _ => type_of_def d end.
Definition full_ev (N : list (str * def)) (e : event) : Prop :=
  match e with
  | EvField _ _ _ _ _ x => full_type N x /\ fp_json x <> None
  | EvExt _ _ _ _ _ x => full_type N x /\ fp_json x <> None /\ fp_extendee x <> None /\ full_ref (the_extendee x)
  | EvMethod _ _ _ _ _ m => full_ref (mp_input m) /\ full_ref (mp_output m)
  | _ => True
  end.

Lemma full_type_settled N x : full_type N x -> settled (fp_type_name x).
Proof. intros [E|(n & d & E & _)]; [right; rewrite E; intros []|left; eauto]. Qed.
Lemma full_settled N e : full_ev N e -> settled_ev e.
Proof.
  destruct e; cbn; try tauto.
  - intros [T _]. eapply full_type_settled. exact T.
  - intros [A B]. split; left; assumption.
  - intros (T & _ & _ & R). split; [eapply full_type_settled; exact T|left; exact R].
Qed.
Lemma full_mono N N' e : (forall n d, assoc_s n N = Some d -> assoc_s n N' = Some d) -> full_ev N e -> full_ev N' e.
Proof.
  intros M. assert (forall x, full_type N x -> full_type N' x) as T.
  { intros x [E|(n & d & E & A & B)]; [left; exact E|right]. exists n, d. auto. }
  destruct e; cbn; try tauto; intros H; destruct H as [H1 H2]; split; auto.
Qed.

(** ** Nothing is written over them *)
Lemma lookup_assoc tr nm a r n d : lookup_name tr nm a r = RFound n d -> n = a /\ assoc_s a nm = Some d.
Proof.
  unfold lookup_name. destruct (assoc_s a nm) as [d'|]; [|discriminate].
  destruct (negb _); [discriminate|]. destruct (negb _); [discriminate|]. intros H. injection H as <- <-. auto.
Qed.
Lemma full_type_step p f path full x raw : full_type (p_names p) x -> find_file_field raw path = Some x -> write_type p f path full x raw = raw.
Proof.
  intros T F. unfold write_type. destruct T as [E|(n & d & E & A & B)]; [rewrite E; reflexivity|]. rewrite E. unfold write_ref.
  destruct (nth_error (p_files p) f) as [g|]; [|reflexivity]. rewrite absolute_name. destruct (lookup_name _ _ _ _) eqn:L; try reflexivity.
  apply lookup_assoc in L. destruct L as [-> L]. rewrite A in L. injection L as <-. eapply on_field_fixed; [exact F|].
  destruct x. unfold set_type, absolute. cbn in *. rewrite <- B, E. reflexivity.
Qed.
Lemma full_step p e r : full_ev (p_names p) e ->
  match e with EvField path _ _ _ _ x | EvExt path _ _ _ _ x => find_file_field r path = Some x | EvMethod path _ _ _ _ m => find_file_method r path = Some m | _ => True end ->
  write_step p e r = r.
Proof.
  destruct e as [| |path full f m i x| | |path full f s i m| | |path full f par i x]; cbn [full_ev write_step]; try reflexivity.
  - intros [T J] F. destruct (fp_json x) as [j|] eqn:Ej; [|congruence]. rewrite (json_fixed _ _ _ _ Ej). apply full_type_step; assumption.
  - intros [[a Ea] [b Eb]] F. unfold write_ref. destruct (nth_error (p_files p) f) as [g|]; [|reflexivity]. rewrite Ea, Eb, !absolute_name.
    assert (forall rr n d, lookup_name (fi_trans g) (p_names p) a rr = RFound n d -> on_file_method (set_input n) path r = r) as P1.
    { intros rr n d L. apply lookup_assoc in L. destruct L as [-> _]. eapply on_method_fixed; [exact F|]. destruct m. unfold set_input, absolute. cbn in *. congruence. }
    assert (forall rr n d, lookup_name (fi_trans g) (p_names p) b rr = RFound n d -> on_file_method (set_output n) path r = r) as P2.
    { intros rr n d L. apply lookup_assoc in L. destruct L as [-> _]. eapply on_method_fixed; [exact F|]. destruct m. unfold set_output, absolute. cbn in *. congruence. }
    destruct (lookup_name (fi_trans g) (p_names p) a FMessage) eqn:La; [rewrite (P1 _ _ _ La)| | | |]; (destruct (lookup_name (fi_trans g) (p_names p) b FMessage) eqn:Lb; [exact (P2 _ _ _ Lb)| | | |]; reflexivity).
  - intros (T & J & Ne & [a Ea]) F. destruct (fp_json x) as [j|] eqn:Ej; [|congruence]. rewrite (json_fixed _ _ _ _ Ej). unfold the_extendee in Ea. 
    destruct (fp_extendee x) as [b|] eqn:Eb; [|congruence]. subst b.
    assert (write_ref p f full (dot :: a) FMessage (fun n _ => on_file_field (set_extendee n) path) r = r) as ->.
    { unfold write_ref. destruct (nth_error (p_files p) f) as [g|]; [|reflexivity]. rewrite absolute_name.
      destruct (lookup_name _ _ _ _) eqn:L; try reflexivity. apply lookup_assoc in L. destruct L as [-> _]. eapply on_field_fixed; [exact F|].
      destruct x. unfold set_extendee, absolute. cbn in *. congruence. }
    apply full_type_step; assumption.
Qed.

Section Full.
  Context (X : externs) (SO : search_ok X) (p : pool) (I : Inv X p) (fs : list file) (Hu : unknown_files p fs) (p1 : pool).
  Let o := offsets_of p.
  Let evs := visit o fs.
  Context (H1 : fold_res names_step evs (V p []) = Ok (V p1 [])) (fuel : nat) (p2 : pool)
          (H2 : fold_res (resolve_step X fuel) evs (V p1 []) = Ok (V p2 [])).
  Let base := length (p_files p).
  Context (FE : Forall (full_ev (p_names p1)) evs).

  Lemma full_raws todo : forall done qa, evs = done ++ todo -> fold_res (resolve_step X fuel) done (V p1 []) = Ok (V qa []) ->
    resolve_raws X fuel base todo (V qa []) fs = Ok fs.
  Proof.
    induction todo as [|e todo IH]; intros done qa Hl Hd; [reflexivity|]. cbn [resolve_raws].
    assert (evs = (done ++ [e]) ++ todo) as Hl' by (rewrite <- app_assoc; exact Hl).
    destruct (track_cut X p fs p1 fuel p2 H2 (done ++ [e]) todo Hl') as [qb Hb]. pose proof Hb as Hb'. apply cut_fold in Hb'. destruct Hb' as (v1 & B1 & B2).
    rewrite Hd in B1. apply Ok_inj in B1. subst v1. cbn [fold_res] in B2. apply rbind_ok in B2. destruct B2 as (v2 & B2 & B3). apply Ok_inj in B3. subst v2.
    rewrite B2. cbn [rbind v_pool]. assert (upd (file_of_event e - base) (write_step qa e) fs = fs) as ->; [|exact (IH _ _ Hl' Hb)].
    assert (In e evs) as He by (rewrite Hl; apply in_or_app; right; left; reflexivity).
    pose proof (resolve_prefix X SO p I fs Hu p1 H1 fuel done (e :: todo) qa Hl Hd) as R.
    rewrite Forall_forall in FE. pose proof (FE e He) as F. rewrite <- (ri_names _ _ _ _ _ _ R) in F.
    rewrite file_of_same. apply upd_fixed. intros r Hr. apply full_step; [exact F|].
    assert (forall it, ev_item e = Some it -> exists scope, declares r (ev_path e) scope it) as Q.
    { intros it Ei. destruct (event_new p fs e it He Ei) as (k & f & E1 & E2 & scope & D & _). cbn [of_file offsets_of] in E1. fold base in E1.
      rewrite E1 in Hr. replace (base + k - base)%nat with k in Hr by lia. rewrite E2 in Hr. injection Hr as <-. eauto. }
    destruct e; try exact Logic.I; destruct (Q _ eq_refl) as [scope D]; [eapply field_found|eapply method_found|eapply ext_found]; exact D.
  Qed.
  Lemma full_back : given_back X fuel p fs = Ok fs.
  Proof. unfold given_back. fold o. fold evs. rewrite H1. cbn [rbind]. exact (full_raws evs [] p1 eq_refl eq_refl). Qed.
End Full.

(** ** What is given back is written out *)
Section Out.
  Context (X : externs) (SO : search_ok X) (p : pool) (I : Inv X p) (fs : list file) (Hu : unknown_files p fs) (p1 : pool).
  Let o := offsets_of p.
  Let evs := visit o fs.
  Context (H1 : fold_res names_step evs (V p []) = Ok (V p1 [])) (fuel : nat) (p2 : pool)
          (H2 : fold_res (resolve_step X fuel) evs (V p1 []) = Ok (V p2 [])).
  Context (out : list file) (HO : resolve_raws X fuel (length (p_files p)) evs (V p1 []) fs = Ok out).

  Lemma written_full tr full x x' : type_written (p_names p1) tr full x x' -> full_type (p_names p1) x'.
  Proof.
    intros [(_ & E & _)|(_ & n & d & R & E & T)]; [left; exact E|right]. exists n, d. split; [exact E|].
    apply found_self in R. apply lookup_assoc in R. split; [apply R|]. rewrite T. destruct (fp_type x); unfold type_of_def; destruct (d_kind d); reflexivity.
  Qed.
  Lemma out_full : Forall (full_ev (p_names p1)) (visit o out).
  Proof.
    apply Forall_forall. intros e' He. apply In_nth_error in He. destruct He as [n Hn].
    destruct (pair_nth _ _ _ (eq_sym (back_events X p fs p1 fuel out HO)) _ _ Hn) as (e & He & B).
    destruct e' as [| |path full f m i x'| | |path full f s i m'| | |path full f par i x']; try exact Logic.I.
    - destruct e as [| |pa fu f' m0 i' y| | | | | |]; try discriminate. clear B.
      destruct (partner_field X SO p I fs Hu p1 H1 fuel p2 H2 out HO _ _ _ _ _ _ _ He) as (x'' & j' & r' & g2 & Q & P1 & P2 & P3 & P4 & W1 & W2 & W3 & W4).
      fold o in Q. rewrite Hn in Q. apply Some_inj in Q. injection Q as <- <- <- <- <- <-. split; [eapply written_full; exact W4|congruence].
    - destruct e as [| | | | |pa fu f' m0 i' y| | |]; try discriminate. clear B.
      destruct (partner_method X SO p I fs Hu p1 H1 fuel p2 H2 out HO _ _ _ _ _ _ _ He) as (x'' & j' & r' & g2 & Q & P1 & P2 & P3 & P4 & W1 & (a & d & R & E) & (a' & d' & R' & E')).
      fold o in Q. rewrite Hn in Q. apply Some_inj in Q. injection Q as <- <- <- <- <- <-. split; eexists; eassumption.
    - destruct e as [| | | | | | | |pa fu f' m0 i' y]; try discriminate. clear B.
      destruct (partner_ext X SO p I fs Hu p1 H1 fuel p2 H2 out HO _ _ _ _ _ _ _ He) as (x'' & j' & r' & g2 & Q & P1 & P2 & P3 & P4 & W1 & W2 & W3 & b & W4 & (a & d & R & E)).
      fold o in Q. rewrite Hn in Q. apply Some_inj in Q. injection Q as <- <- <- <- <- <-. split; [eapply written_full; exact W3|]. split; [congruence|]. split; [congruence|].
      unfold the_extendee. rewrite W4. exists a. exact E.
  Qed.

  (** in a pool that is alike they make a pool that is alike *)
  Context (HE : extendees_named fs).
  Lemma out_alike P : pool_alike p P -> exists P1 P2, fold_res names_step (visit o out) (V P []) = Ok (V P1 []) /\
    fold_res (resolve_step X fuel) (visit o out) (V P1 []) = Ok (V P2 []) /\ pool_alike p1 P1 /\ pool_alike p2 P2.
  Proof.
    intros A. assert (like any (V p []) (V P [])) as L0 by (split; [exact A|split; [reflexivity|exact Logic.I]]).
    pose proof (names_all_like _ _ _ _ (back_events X p fs p1 fuel out HO) L0) as N. fold o in N. fold evs in N. rewrite H1 in N.
    destruct (fold_res names_step (visit o out) (V P [])) as [[q1 e1]| | |]; cbn in N; try contradiction. destruct N as (A1 & E1 & _). cbn in A1, E1. subst e1.
    assert (like any (V p1 []) (V q1 [])) as L1 by (split; [exact A1|split; [reflexivity|exact Logic.I]]).
    pose proof (resolve_all_like X fuel _ _ (back_events X p fs p1 fuel out HO) _ _ L1) as Q. fold o in Q. fold evs in Q. rewrite H2 in Q.
    specialize (Q (fun done e rest e' v1 => back_same X SO p I fs Hu p1 H1 fuel p2 H2 out HO HE done e rest e' v1)).
    destruct (fold_res (resolve_step X fuel) (visit o out) (V q1 [])) as [[q2 e2]| | |] eqn:F2; cbn in Q; try contradiction. destruct Q as (A2 & E2 & _). cbn in A2, E2. subst e2.
    exists q1, q2. auto.
  Qed.
End Out.
Lemma alike_offsets p q : pool_alike p q -> offsets_of q = offsets_of p.
Proof. intros A. unfold offsets_of. rewrite <- (files_length _ _ A), (pa_msgs _ _ A), (pa_enums _ _ A), (pa_exts _ _ A), (pa_svcs _ _ A). reflexivity. Qed.
