(** What ends up in the copies of the files (for C63): each place is written to
    at one step of the walk only. *)
From Verif Require Import Base BaseProofs Value Descr Proto Build VisitProofs EventProofs BuildFrame BuildNames BuildQuiet BuildResolve BuildInv BuildSafe DeclSpec DeclProofs ResolveSpec Prop_Resolve ValidSpec AcceptSteps AcceptNames AcceptRefs AcceptResolve AcceptVisible WalkOnce Raw RawSpec RawPlaces RawWalk.
From Coq Require Import List Lia ZArith NArith.
Import ListNotations.
Local Open Scope list_scope.

(** ** What is written, on the field or method *)

(** [x'] is [x] with its type name resolved, for a file that sees [tr] *)
Definition type_written (nm : list (str * def)) (tr : list nat) (full : str) (x x' : fproto) : Prop :=
  (fp_type_name x = [] /\ fp_type_name x' = [] /\ fp_type x' = fp_type x) \/
  (fp_type_name x <> [] /\ exists n d, resolve_name tr nm full (fp_type_name x) FFieldType = RFound n d /\
     fp_type_name x' = dot :: n /\ fp_type x' = match fp_type x with TGroup => TGroup | _ => type_of_def d end).
Definition ref_written (nm : list (str * def)) (tr : list nat) (full a b : str) : Prop :=
  exists n d, resolve_name tr nm full a FMessage = RFound n d /\ b = dot :: n.

Definition field_written nm tr full (x x' : fproto) : Prop :=
  blank_field x' = blank_field x /\ fp_extendee x' = fp_extendee x /\ fp_json x' = Some (json_of x) /\ type_written nm tr full x x'.
Definition ext_written nm tr full (x x' : fproto) : Prop :=
  blank_field x' = blank_field x /\ fp_json x' = Some (json_of x) /\ type_written nm tr full x x' /\
  exists b, fp_extendee x' = Some b /\ ref_written nm tr full (the_extendee x) b.
Definition method_written nm tr full (m m' : mproto) : Prop :=
  blank_method m' = blank_method m /\ ref_written nm tr full (mp_input m) (mp_input m') /\ ref_written nm tr full (mp_output m) (mp_output m').

Lemma blank_set_type n d x : blank_field (set_type n d x) = blank_field x. Proof. reflexivity. Qed.
Lemma blank_set_extendee n x : blank_field (set_extendee n x) = blank_field x. Proof. reflexivity. Qed.
Lemma blank_set_json x : blank_field (set_json x) = blank_field x. Proof. reflexivity. Qed.

(** the step at the place itself *)
Section Self.
  Context (p : pool) (f : nat) (g : file_inner) (Hg : nth_error (p_files p) f = Some g).
  Let tr := fi_trans g.

  Lemma type_self path full x raw y : find_file_field raw path = Some y -> fp_type y = fp_type x -> fp_type_name y = fp_type_name x ->
    (fp_type_name x <> [] -> exists n d, resolve_name tr (p_names p) full (fp_type_name x) FFieldType = RFound n d) ->
    exists y', find_file_field (write_type p f path full x raw) path = Some y' /\ type_written (p_names p) tr full x y' /\
      blank_field y' = blank_field y /\ fp_extendee y' = fp_extendee y /\ fp_json y' = fp_json y.
  Proof.
    intros Hy E1 E2 R. unfold write_type. destruct (fp_type_name x) as [|c s] eqn:Et.
    - exists y. split; [exact Hy|]. split; [|auto]. left. rewrite Et. auto.
    - destruct R as (n & d & R); [discriminate|]. unfold write_ref. rewrite Hg. fold tr. rewrite R.
      exists (set_type n d y). rewrite file_field_same, Hy. split; [reflexivity|]. split; [|auto]. right. rewrite Et.
      split; [discriminate|]. exists n, d. split; [exact R|]. cbn. rewrite E1. auto.
  Qed.
  Lemma json_self path x raw y : find_file_field raw path = Some y -> fp_json y = fp_json x -> fp_name y = fp_name x ->
    exists y', find_file_field (write_json path x raw) path = Some y' /\ fp_json y' = Some (json_of x) /\
      blank_field y' = blank_field y /\ fp_extendee y' = fp_extendee y /\ fp_type y' = fp_type y /\ fp_type_name y' = fp_type_name y.
  Proof.
    intros Hy E1 E2. unfold write_json, json_of. destruct (fp_json x) as [j|].
    - exists y. auto 10.
    - exists (set_json y). rewrite file_field_same, Hy. cbn. rewrite E2. auto 10.
  Qed.
  Lemma field_self path full m i x raw : find_file_field raw path = Some x ->
    (fp_type_name x <> [] -> exists n d, resolve_name tr (p_names p) full (fp_type_name x) FFieldType = RFound n d) ->
    exists x', find_file_field (write_step p (EvField path full f m i x) raw) path = Some x' /\ field_written (p_names p) tr full x x'.
  Proof.
    intros Hx R. cbn [write_step]. destruct (type_self path full x raw x Hx eq_refl eq_refl R) as (y & Y1 & Y2 & Y3 & Y4 & Y5).
    destruct (json_self path x _ y Y1 Y5) as (z & Z1 & Z2 & Z3 & Z4 & Z5 & Z6); [exact (f_equal fp_name Y3)|].
    exists z. split; [exact Z1|]. split; [congruence|]. split; [congruence|]. split; [exact Z2|].
    unfold type_written in *. rewrite Z5, Z6. exact Y2.
  Qed.
  Lemma ext_self path full par i x raw : find_file_field raw path = Some x ->
    (exists n d, resolve_name tr (p_names p) full (the_extendee x) FMessage = RFound n d) ->
    (fp_type_name x <> [] -> exists n d, resolve_name tr (p_names p) full (fp_type_name x) FFieldType = RFound n d) ->
    exists x', find_file_field (write_step p (EvExt path full f par i x) raw) path = Some x' /\ ext_written (p_names p) tr full x x'.
  Proof.
    intros Hx (n & d & E) R. cbn [write_step]. fold (the_extendee x). unfold write_ref at 1. rewrite Hg. fold tr. rewrite E.
    assert (find_file_field (on_file_field (set_extendee n) path raw) path = Some (set_extendee n x)) as Hw by (rewrite file_field_same, Hx; reflexivity).
    destruct (type_self path full x _ _ Hw eq_refl eq_refl R) as (y & Y1 & Y2 & Y3 & Y4 & Y5).
    destruct (json_self path x _ y Y1 Y5) as (z & Z1 & Z2 & Z3 & Z4 & Z5 & Z6); [exact (f_equal fp_name Y3)|].
    exists z. split; [exact Z1|]. split; [rewrite Z3; exact Y3|]. split; [exact Z2|]. split; [unfold type_written in *; rewrite Z5, Z6; exact Y2|].
    exists (dot :: n). split; [rewrite Z4, Y4; reflexivity|]. exists n, d. auto.
  Qed.
  Lemma method_self path full s i m raw : find_file_method raw path = Some m ->
    (exists n d, resolve_name tr (p_names p) full (mp_input m) FMessage = RFound n d) ->
    (exists n d, resolve_name tr (p_names p) full (mp_output m) FMessage = RFound n d) ->
    exists m', find_file_method (write_step p (EvMethod path full f s i m) raw) path = Some m' /\ method_written (p_names p) tr full m m'.
  Proof.
    intros Hm (n & d & E) (n' & d' & E'). cbn [write_step]. unfold write_ref. rewrite Hg. fold tr. rewrite E, E'.
    exists (set_output n' (set_input n m)). rewrite !file_method_same, Hm. split; [reflexivity|]. split; [reflexivity|].
    split; [exists n, d|exists n', d']; auto.
  Qed.
End Self.

(** the other places *)
Lemma write_ref_any {A} (h : file -> A) p f scope name r w raw : (forall n d raw, h (w n d raw) = h raw) -> h (write_ref p f scope name r w raw) = h raw.
Proof. intros H. unfold write_ref. destruct (nth_error _ _); [|reflexivity]. destruct (resolve_name _ _ _ _ _); auto. Qed.
Lemma write_type_any {A} (h : file -> A) p f path full x raw : (forall n d raw, h (on_file_field (set_type n d) path raw) = h raw) -> h (write_type p f path full x raw) = h raw.
Proof. intros H. unfold write_type. destruct (fp_type_name x); [reflexivity|]. apply write_ref_any. exact H. Qed.
Lemma write_json_any {A} (h : file -> A) path x raw : (forall raw, h (on_file_field set_json path raw) = h raw) -> h (write_json path x raw) = h raw.
Proof. intros H. unfold write_json. destruct (fp_json x); auto. Qed.
Lemma write_any {A} (h : file -> A) p e raw :
  (forall g raw, h (on_file_field g (ev_path e) raw) = h raw) -> (forall g raw, h (on_file_method g (ev_path e) raw) = h raw) -> h (write_step p e raw) = h raw.
Proof.
  intros H1 H2. destruct e; cbn [write_step ev_path] in *; try reflexivity.
  - rewrite write_json_any by auto. apply write_type_any. auto.
  - rewrite !write_ref_any by auto. reflexivity.
  - rewrite write_json_any by auto. rewrite write_type_any by auto. apply write_ref_any. auto.
Qed.
Lemma write_field_other p e raw path : real (ev_path e) -> real path -> ev_path e <> path -> find_file_field (write_step p e raw) path = find_file_field raw path.
Proof. intros A B C. apply (write_any (fun r => find_file_field r path)); intros; [apply file_field_other; assumption|apply method_field_apart]. Qed.
Lemma write_method_other p e raw path : real (ev_path e) -> real path -> ev_path e <> path -> find_file_method (write_step p e raw) path = find_file_method raw path.
Proof. intros A B C. apply (write_any (fun r => find_file_method r path)); intros; [apply field_method_apart|apply file_method_other; assumption]. Qed.
Lemma write_blank p e raw : blank_file (write_step p e raw) = blank_file raw.
Proof.
  destruct e; cbn [write_step]; try reflexivity.
  - rewrite (write_json_any blank_file) by (intros; apply blank_file_field; reflexivity).
    apply (write_type_any blank_file). intros. apply blank_file_field. reflexivity.
  - rewrite !(write_ref_any blank_file) by (intros; apply blank_file_method; reflexivity). reflexivity.
  - rewrite (write_json_any blank_file) by (intros; apply blank_file_field; reflexivity).
    rewrite (write_type_any blank_file) by (intros; apply blank_file_field; reflexivity).
    apply (write_ref_any blank_file). intros. apply blank_file_field. reflexivity.
Qed.

(** ** Along the walk *)

Lemma file_of_same e : file_of_event e = ev_file_of e.
Proof. destruct e; reflexivity. Qed.
Section Along.
  Context (X : externs) (fuel base : nat).

  Lemma raws_app a : forall b v r v1, fold_res (resolve_step X fuel) a v = Ok v1 ->
    exists r1, resolve_raws X fuel base a v r = Ok r1 /\ resolve_raws X fuel base (a ++ b) v r = resolve_raws X fuel base b v1 r1.
  Proof.
    induction a as [|e a IH]; intros b v r v1 H; cbn [fold_res] in H.
    - apply Ok_inj in H. subst v1. exists r. split; reflexivity.
    - apply rbind_ok in H. destruct H as [v2 [H1 H]]. cbn [resolve_raws app]. rewrite H1. cbn [rbind].
      apply IH. exact H.
  Qed.
  Lemma raws_defined evs v v1 r : fold_res (resolve_step X fuel) evs v = Ok v1 -> exists out, resolve_raws X fuel base evs v r = Ok out.
  Proof. intros H. destruct (raws_app evs [] v r v1 H) as (r1 & H1 & _). eauto. Qed.
  Lemma raws_blank evs : forall v r out, resolve_raws X fuel base evs v r = Ok out -> map blank_file out = map blank_file r.
  Proof.
    induction evs as [|e evs IH]; intros v r out H; cbn [resolve_raws] in H; [apply Ok_inj in H; subst; reflexivity|].
    apply rbind_ok in H. destruct H as [v1 [_ H]]. rewrite (IH _ _ _ H). apply upd_quiet. apply write_blank.
  Qed.
  Lemma raws_other {A} (h : file -> list Z -> option A) path j evs :
    (forall p e raw, In e evs -> ev_path e <> path -> h (write_step p e raw) path = h raw path) ->
    (forall e, In e evs -> (base <= ev_file_of e)%nat /\ (ev_file_of e, ev_path e) <> ((base + j)%nat, path)) ->
    forall v r out, resolve_raws X fuel base evs v r = Ok out ->
      option_map (fun f => h f path) (nth_error out j) = option_map (fun f => h f path) (nth_error r j).
  Proof.
    intros Hh. induction evs as [|e evs IH]; intros Ha v r out H; cbn [resolve_raws] in H; [apply Ok_inj in H; subst; reflexivity|].
    apply rbind_ok in H. destruct H as [v1 [_ H]]. rewrite (IH ltac:(intros; apply Hh; [right|]; assumption) ltac:(intros; apply Ha; right; assumption) _ _ _ H).
    destruct (Ha e (or_introl eq_refl)) as [L N]. rewrite file_of_same.
    destruct (Nat.eq_dec (ev_file_of e - base) j) as [E|E].
    - rewrite E, upd_same. destruct (nth_error r j) as [f|]; [|reflexivity]. cbn. f_equal. apply Hh; [left; reflexivity|].
      intros Q. apply N. rewrite Q. f_equal. lia.
    - rewrite upd_other by exact E. reflexivity.
  Qed.
  (** the place of one step: written at that step and at no other *)
  Lemma raws_at {A} (h : file -> list Z -> option A) done e rest v r out v1 pa j :
    resolve_raws X fuel base (done ++ e :: rest) v r = Ok out ->
    fold_res (resolve_step X fuel) done v = Ok pa -> fold_res (resolve_step X fuel) (done ++ e :: rest) v = Ok v1 ->
    (forall p e' raw, In e' (done ++ rest) -> ev_path e' <> ev_path e -> h (write_step p e' raw) (ev_path e) = h raw (ev_path e)) ->
    (forall e', In e' (done ++ rest) -> (base <= ev_file_of e')%nat /\ (ev_file_of e', ev_path e') <> (ev_file_of e, ev_path e)) ->
    ev_file_of e = (base + j)%nat ->
    forall f, nth_error r j = Some f -> exists f1 f', h f1 (ev_path e) = h f (ev_path e) /\
      nth_error out j = Some f' /\ h f' (ev_path e) = h (write_step (v_pool pa) e f1) (ev_path e).
  Proof.
    intros H Hd H1 Hh Ha Ej f Hf. destruct (raws_app done (e :: rest) v r pa Hd) as (r1 & R1 & R2). rewrite R2 in H. cbn [resolve_raws] in H.
    apply rbind_ok in H. destruct H as [v2 [_ H]].
    pose proof (raws_other h (ev_path e) j done ltac:(intros; apply Hh; [apply in_or_app; left|]; assumption)
      ltac:(intros e' He'; rewrite <- Ej; apply Ha; apply in_or_app; left; exact He') _ _ _ R1) as Q1.
    pose proof (raws_other h (ev_path e) j rest ltac:(intros; apply Hh; [apply in_or_app; right|]; assumption)
      ltac:(intros e' He'; rewrite <- Ej; apply Ha; apply in_or_app; right; exact He') _ _ _ H) as Q2.
    rewrite Hf in Q1. destruct (nth_error r1 j) as [f1|] eqn:F1; [|discriminate]. cbn in Q1. apply Some_inj in Q1.
    rewrite file_of_same, Ej in Q2. replace (base + j - base)%nat with j in Q2 by lia. rewrite upd_same, F1 in Q2. cbn in Q2.
    destruct (nth_error out j) as [f'|]; [|discriminate]. cbn in Q2. apply Some_inj in Q2. exists f1, f'. auto.
  Qed.
End Along.

(** ** In a build that succeeds *)
Section Track.
  Context (X : externs) (SO : search_ok X) (p : pool) (I : Inv X p) (fs : list file) (Hu : unknown_files p fs) (p1 : pool).
  Let o := offsets_of p.
  Let evs := visit o fs.
  Context (H1 : fold_res names_step evs (V p []) = Ok (V p1 [])) (fuel : nat) (p2 : pool)
          (H2 : fold_res (resolve_step X fuel) evs (V p1 []) = Ok (V p2 [])).
  Let base := length (p_files p).
  Let nm := p_names p1.

  Lemma track_real e : In e evs -> real (ev_path e).
  Proof.
    intros He. destruct (ev_item e) as [it|] eqn:Ei.
    - destruct (event_new p fs e it He Ei) as (k & f & _ & _ & (scope & D & _)). eapply declared_real. exact D.
    - destruct e; try discriminate. assert (In (EvFile path index f) (pool_events p ++ evs)) as Ha by (apply in_or_app; right; exact He).
      apply (file_all X p I fs) in Ha. destruct Ha as [-> _]. constructor.
  Qed.
  Lemma track_base e : In e evs -> (base <= ev_file_of e)%nat.
  Proof.
    intros He. destruct (event_file p fs e He) as (k & f & E & _). rewrite E. unfold base. cbn. lia.
  Qed.
  Lemma split_all done e rest e' : evs = done ++ e :: rest -> In e' (done ++ rest) -> place e' <> place e.
  Proof.
    intros Hl Hi. pose proof (visit_once o fs) as N. fold evs in N. rewrite Hl, map_app in N. cbn [map] in N.
    apply NoDup_remove_2 in N. intros Q. apply N. rewrite <- Q, <- map_app. apply in_map. exact Hi.
  Qed.

  Lemma cut_fold {A} (g : A -> vst -> res vst) a b : forall v v2, fold_res g (a ++ b) v = Ok v2 -> exists v1, fold_res g a v = Ok v1 /\ fold_res g b v1 = Ok v2.
  Proof.
    induction a as [|x a IH]; intros v v2 H; cbn [app fold_res] in *; [eauto|].
    apply rbind_ok in H. destruct H as [v1 [A1 H]]. rewrite A1. cbn [rbind]. apply IH. exact H.
  Qed.
  Lemma fold_grows l : forall v v2, fold_res (resolve_step X fuel) l v = Ok v2 -> grows v v2.
  Proof.
    induction l as [|x l IH]; intros v v2 H; cbn [fold_res] in H; [apply Ok_inj in H; subst; apply grows_refl|].
    apply rbind_ok in H. destruct H as [v1 [A1 H]]. eapply grows_trans; [eapply grows_resolve; exact A1|]. apply IH. exact H.
  Qed.
  Lemma track_cut done rest : evs = done ++ rest -> exists pa, fold_res (resolve_step X fuel) done (V p1 []) = Ok (V pa []).
  Proof.
    intros Hl. pose proof H2 as H2'. rewrite Hl in H2'. apply cut_fold in H2'. destruct H2' as [[pa er] [Hd Hr]].
    apply fold_grows in Hr. destruct Hr as [l E]. cbn in E. symmetry in E. apply app_eq_nil in E. destruct E as [-> _]. eauto.
  Qed.
  (** a prefix of the walk, and what its file sees *)
  Lemma track_prefix done e rest it pa : evs = done ++ e :: rest -> ev_item e = Some it -> fold_res (resolve_step X fuel) done (V p1 []) = Ok (V pa []) ->
    p_names pa = nm /\
    exists g g2 f j, nth_error (p_files pa) (ev_file_of e) = Some g /\ nth_error (p_files p2) (ev_file_of e) = Some g2 /\
      (forall full a r n d, resolve_name (fi_trans g) nm full a r = RFound n d <-> resolve_name (fi_trans g2) nm full a r = RFound n d) /\ fi_raw g = f /\
      ev_file_of e = (base + j)%nat /\ nth_error fs j = Some f /\ declares_name f (ev_path e) (ev_full e) it.
  Proof.
    intros Hl Ei Hd. pose proof (resolve_prefix X SO p I fs Hu p1 H1 fuel done (e :: rest) pa Hl Hd) as R.
    pose proof (resolve_prefix X SO p I fs Hu p1 H1 fuel evs [] p2 (eq_sym (app_nil_r _)) H2) as R2.
    split; [exact (ri_names _ _ _ _ _ _ R)|].
    destruct (own_file X p I fs p1 _ _ _ _ Hl Ei) as (k & f & E1 & E2 & E3 & E4 & E5).
    assert (In (EvFile [] (ev_file_of e) f) evs) as E4' by (rewrite Hl; apply in_or_app; left; exact E4).
    destruct (ri_files _ _ _ _ _ _ R _ _ _ E4) as (sy & deps & trans & _ & G & _).
    destruct (ri_files _ _ _ _ _ _ R2 _ _ _ E4') as (sy' & deps' & trans' & _ & G' & _).
    pose proof (collected_right X SO p I fs Hu p1 H1 fuel) as HV.
    exists (FileI sy f deps trans), (FileI sy' f deps' trans'), f, k. split; [exact G|]. split; [exact G'|]. split; [|split; [reflexivity|]].
    - intros full a r n d. cbn [fi_trans]. unfold nm.
      rewrite (refers_iff p1 _ (ev_file_of e) trans (fun x => HV _ _ _ _ _ _ _ x Hl R Hd E4 G)).
      rewrite (refers_iff p1 _ (ev_file_of e) trans' (fun x => HV evs [] _ _ _ _ _ x (eq_sym (app_nil_r _)) R2 H2 E4' G')). reflexivity.
    - rewrite (raws_len p) in E1. auto.
  Qed.

  Context (out : list file) (HO : resolve_raws X fuel base evs (V p1 []) fs = Ok out).

  Lemma track_at {A} (h : file -> list Z -> option A) done e rest pa j f :
    (forall p e' raw, real (ev_path e') -> ev_path e' <> ev_path e -> h (write_step p e' raw) (ev_path e) = h raw (ev_path e)) ->
    evs = done ++ e :: rest -> fold_res (resolve_step X fuel) done (V p1 []) = Ok (V pa []) -> ev_file_of e = (base + j)%nat -> nth_error fs j = Some f ->
    exists f1 f', h f1 (ev_path e) = h f (ev_path e) /\ nth_error out j = Some f' /\ h f' (ev_path e) = h (write_step pa e f1) (ev_path e).
  Proof.
    intros Hh Hl Hd Ej Hf. assert (forall e', In e' (done ++ rest) -> In e' evs) as Hs.
    { intros e' H. rewrite Hl. apply in_app_or in H. apply in_or_app. destruct H; [left|right; right]; assumption. }
    rewrite Hl in HO. pose proof H2 as H2'. rewrite Hl in H2'.
    refine (raws_at X fuel base h done e rest _ _ _ _ _ j HO Hd H2' _ _ Ej f Hf).
    - intros q e' raw H N. apply Hh; [apply track_real; apply Hs; exact H|exact N].
    - intros e' H. split; [apply track_base; apply Hs; exact H|]. exact (split_all _ _ _ _ Hl H).
  Qed.

  (** what the pool says about them in the end *)
  Lemma final_RI : RI X o p1 evs evs p2.
  Proof. exact (resolve_prefix X SO p I fs Hu p1 H1 fuel evs [] p2 (eq_sym (app_nil_r _)) H2). Qed.
  Lemma final_field path full f m i x : In (EvField path full f m i x) evs ->
    exists mi fi g k d, nth_error (p_messages p2) m = Some mi /\ In fi (m_fields mi) /\ nth_error (p_files p2) f = Some g /\
      type_spec nm (fi_trans g) (fp_type x) (fp_type_name x) full k /\ fi = field_of g path full f x k d.
  Proof.
    intros He. destruct (visit_cc o fs) as [Hcl Hcm]. fold evs in Hcl, Hcm. destruct (Hcl _ 0%nat m He eq_refl) as (h & Hh & Hd').
    destruct Hd' as [[l Hd']|[? _]]; [|discriminate].
    destruct h as [|mpath mfull mf par mi dm| | |spath sfull sf si sp| | | |]; cbn in Hd'; try contradiction; [|destruct Hd' as [Q|[]]; discriminate].
    destruct Hd' as [Q|[Q|[]]]; [|discriminate]. inversion Q; subst. clear Q.
    destruct (ri_msgs _ _ _ _ _ _ final_RI _ _ _ _ _ _ Hh) as (y & M1 & _ & _ & _ & _ & M6).
    set (e := EvField _ _ _ _ _ _) in *. assert (In e (kids 0 m evs)) as Hk.
    { apply filter_In. split; [exact He|]. unfold owned, e. cbn. rewrite !Nat.eqb_refl. reflexivity. }
    apply In_nth_error in Hk. destruct Hk as [q Hk]. destruct (F2_nth_l _ _ _ (fo_fields _ _ _ _ _ _ M6) _ _ Hk) as (fi & F1 & S). unfold e in S. cbn [fspec] in S.
    destruct S as (g & k & d & S1 & _ & S3 & _ & _ & S6). rewrite (ri_names _ _ _ _ _ _ final_RI) in S3.
    exists y, fi, g, k, d. split; [exact M1|]. split; [eapply nth_error_In; exact F1|]. auto.
  Qed.
  Lemma final_ext path full f par i x : In (EvExt path full f par i x) evs ->
    exists xi g k d e, nth_error (p_exts p2) i = Some xi /\ nth_error (p_files p2) f = Some g /\
      type_spec nm (fi_trans g) (fp_type x) (fp_type_name x) full k /\ message_spec nm (fi_trans g) full (the_extendee x) e /\
      xi = ext_of g path full f par x e k d.
  Proof.
    intros He. destruct (ri_exts _ _ _ _ _ _ final_RI _ _ _ _ _ _ He) as (xi & A & S). cbn [xspec] in S.
    destruct S as (g & e & k & d & S1 & S2 & S3 & S4 & S5 & S6). rewrite (ri_names _ _ _ _ _ _ final_RI) in S2, S4.
    exists xi, g, k, d, e. auto 10.
  Qed.
  Lemma final_method path full f s i m : In (EvMethod path full f s i m) evs ->
    exists si me g a b, nth_error (p_services p2) s = Some si /\ In me (s_methods si) /\ nth_error (p_files p2) f = Some g /\
      message_spec nm (fi_trans g) full (mp_input m) a /\ message_spec nm (fi_trans g) full (mp_output m) b /\
      id_file (me_id me) = f /\ id_path (me_id me) = path /\ me_input me = a /\ me_output me = b.
  Proof.
    intros He. destruct (visit_cc o fs) as [Hcl _]. fold evs in Hcl. destruct (Hcl _ 2%nat s He eq_refl) as (h & Hh & Hd').
    destruct Hd' as [[l Hd']|[? _]]; [|discriminate].
    destruct h as [|? ? ? ? ? dm| | |spath sfull sf si sp| | | |]; cbn in Hd'; try contradiction; [destruct Hd' as [Q|[Q|[]]]; discriminate|].
    destruct Hd' as [Q|[]]. inversion Q; subst si l. clear Q.
    destruct (ri_svcs _ _ _ _ _ _ final_RI _ _ _ _ _ Hh) as (sv & A & _ & F).
    set (e := EvMethod _ _ _ _ _ _) in *. assert (In e (kids 2 s evs)) as Hk.
    { apply filter_In. split; [exact He|]. unfold owned, e. cbn. rewrite !Nat.eqb_refl. reflexivity. }
    apply In_nth_error in Hk. destruct Hk as [q Hk]. destruct (F2_nth_l _ _ _ F _ _ Hk) as (me & B & S). unfold e in S. cbn [mspec] in S.
    destruct S as (g & a & b & S1 & S2 & S3 & ->). rewrite (ri_names _ _ _ _ _ _ final_RI) in S2, S3.
    exists sv, (MethodI (mk_id f path full (mp_name m)) a b), g, a, b. split; [exact A|]. split; [eapply nth_error_In; exact B|]. auto 10.
  Qed.
  Lemma spec_found tr full x k : type_spec nm tr (fp_type x) (fp_type_name x) full k ->
    fp_type_name x <> [] -> exists n d, resolve_name tr nm full (fp_type_name x) FFieldType = RFound n d.
  Proof. unfold type_spec. destruct (fp_type_name x) as [|c s]; [contradiction|]. intros (n & d & R & _) _. eauto. Qed.
  Lemma message_found tr full a k : message_spec nm tr full a k -> exists n d, resolve_name tr nm full a FMessage = RFound n d.
  Proof. intros (n & d & R & _). eauto. Qed.

  (** what is in the copies in the end *)
  Lemma written_type tr tr' full x x' : (forall full a r n d, resolve_name tr nm full a r = RFound n d <-> resolve_name tr' nm full a r = RFound n d) ->
    type_written nm tr full x x' -> type_written nm tr' full x x'.
  Proof. intros S [T|(T & n & d & R & T')]; [left; exact T|right]. split; [exact T|]. exists n, d. split; [apply S; exact R|exact T']. Qed.
  Lemma written_ref tr tr' full a b : (forall full a r n d, resolve_name tr nm full a r = RFound n d <-> resolve_name tr' nm full a r = RFound n d) ->
    ref_written nm tr full a b -> ref_written nm tr' full a b.
  Proof. intros S (n & d & R & E). exists n, d. split; [apply S; exact R|exact E]. Qed.

  Lemma track_field path full f m i x : In (EvField path full f m i x) evs ->
    exists j r x' g2, f = (base + j)%nat /\ nth_error out j = Some r /\ find_file_field r path = Some x' /\
      nth_error (p_files p2) f = Some g2 /\ field_written nm (fi_trans g2) full x x'.
  Proof.
    intros He. pose proof He as He'. apply in_split in He'. destruct He' as (done & rest & Hl). destruct (track_cut done (_ :: rest) Hl) as [pa Hd].
    destruct (track_prefix _ _ _ _ _ Hl eq_refl Hd) as (Nm & g & g2 & fl & j & G & G2 & S & Raw & Ej & Hf & (scope & D & _)). cbn [ev_file_of ev_path ev_full] in *.
    destruct (track_at find_file_field done (EvField path full f m i x) rest pa j fl) as (f1 & f' & Q1 & Q2 & Q3); auto.
    { intros q e' raw A B. apply write_field_other; [exact A|exact (track_real _ He)|exact B]. }
    cbn [ev_path] in Q1, Q3. rewrite (field_found _ _ _ _ D) in Q1.
    destruct (final_field _ _ _ _ _ _ He) as (mi & fi & g' & k & d & _ & _ & G' & T & _). rewrite G2 in G'. apply Some_inj in G'. subst g'.
    destruct (field_self pa f g G path full m i x f1 Q1) as (x' & X1 & X2 & X3 & X4 & X5).
    { intros N. destruct (spec_found _ _ _ _ T N) as (n & d' & R). exists n, d'. rewrite Nm. apply S. exact R. }
    exists j, f', x', g2. split; [exact Ej|]. split; [exact Q2|]. split; [rewrite Q3; exact X1|]. split; [exact G2|].
    rewrite Nm in X5. split; [exact X2|]. split; [exact X3|]. split; [exact X4|]. eapply written_type; [|exact X5]. exact S.
  Qed.
  Lemma track_ext path full f par i x : In (EvExt path full f par i x) evs ->
    exists j r x' g2, f = (base + j)%nat /\ nth_error out j = Some r /\ find_file_field r path = Some x' /\
      nth_error (p_files p2) f = Some g2 /\ ext_written nm (fi_trans g2) full x x'.
  Proof.
    intros He. pose proof He as He'. apply in_split in He'. destruct He' as (done & rest & Hl). destruct (track_cut done (_ :: rest) Hl) as [pa Hd].
    destruct (track_prefix _ _ _ _ _ Hl eq_refl Hd) as (Nm & g & g2 & fl & j & G & G2 & S & Raw & Ej & Hf & (scope & D & _)). cbn [ev_file_of ev_path ev_full] in *.
    destruct (track_at find_file_field done (EvExt path full f par i x) rest pa j fl) as (f1 & f' & Q1 & Q2 & Q3); auto.
    { intros q e' raw A B. apply write_field_other; [exact A|exact (track_real _ He)|exact B]. }
    cbn [ev_path] in Q1, Q3. rewrite (ext_found _ _ _ _ D) in Q1.
    destruct (final_ext _ _ _ _ _ _ He) as (xi & g' & k & d & e & _ & G' & T & Te & _). rewrite G2 in G'. apply Some_inj in G'. subst g'.
    destruct (ext_self pa f g G path full par i x f1 Q1) as (x' & X1 & X2 & X3 & X4 & b & X5 & X6).
    { destruct (message_found _ _ _ _ Te) as (n & d' & R). exists n, d'. rewrite Nm. apply S. exact R. }
    { intros N. destruct (spec_found _ _ _ _ T N) as (n & d' & R). exists n, d'. rewrite Nm. apply S. exact R. }
    exists j, f', x', g2. split; [exact Ej|]. split; [exact Q2|]. split; [rewrite Q3; exact X1|]. split; [exact G2|].
    rewrite Nm in X4, X6. split; [exact X2|]. split; [exact X3|]. split; [eapply written_type; [exact S|exact X4]|].
    exists b. split; [exact X5|]. eapply written_ref; [exact S|exact X6].
  Qed.
  Lemma track_method path full f s i m : In (EvMethod path full f s i m) evs ->
    exists j r m' g2, f = (base + j)%nat /\ nth_error out j = Some r /\ find_file_method r path = Some m' /\
      nth_error (p_files p2) f = Some g2 /\ method_written nm (fi_trans g2) full m m'.
  Proof.
    intros He. pose proof He as He'. apply in_split in He'. destruct He' as (done & rest & Hl). destruct (track_cut done (_ :: rest) Hl) as [pa Hd].
    destruct (track_prefix _ _ _ _ _ Hl eq_refl Hd) as (Nm & g & g2 & fl & j & G & G2 & S & Raw & Ej & Hf & (scope & D & _)). cbn [ev_file_of ev_path ev_full] in *.
    destruct (track_at find_file_method done (EvMethod path full f s i m) rest pa j fl) as (f1 & f' & Q1 & Q2 & Q3); auto.
    { intros q e' raw A B. apply write_method_other; [exact A|exact (track_real _ He)|exact B]. }
    cbn [ev_path] in Q1, Q3. rewrite (method_found _ _ _ _ D) in Q1.
    destruct (final_method _ _ _ _ _ _ He) as (si & me & g' & a & b & _ & _ & G' & Ta & Tb & _). rewrite G2 in G'. apply Some_inj in G'. subst g'.
    destruct (method_self pa f g G path full s i m f1 Q1) as (m' & X1 & X2 & X3 & X4).
    { destruct (message_found _ _ _ _ Ta) as (n & d' & R). exists n, d'. rewrite Nm. apply S. exact R. }
    { destruct (message_found _ _ _ _ Tb) as (n & d' & R). exists n, d'. rewrite Nm. apply S. exact R. }
    exists j, f', m', g2. split; [exact Ej|]. split; [exact Q2|]. split; [rewrite Q3; exact X1|]. split; [exact G2|].
    rewrite Nm in X3, X4. split; [exact X2|]. split; eapply written_ref; try exact S; assumption.
  Qed.
End Track.
