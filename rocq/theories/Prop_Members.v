(** Fields (C26), enum values (C27) and JSON names (C28) of every pool. *)
From Coq Require Import String.
From Coq Require Import Permutation Sorted.
From Verif Require Import Base BaseProofs Value Descr Proto Build VisitProofs EventProofs BuildFrame BuildNames BuildQuiet BuildResolve BuildInv DeclSpec DeclProofs PoolFacts ExampleFiles PoolMembers.
From Coq Require Import List.
Import ListNotations.
Local Open Scope list_scope.
Local Open Scope N_scope.

(** ** C28, the function: words separated by underscores *)

Definition capital (w : str) : str := match w with [] => [] | c :: r => upper c :: r end.
Fixpoint joined (ws : list str) : str :=
  match ws with [] => [] | w :: r => 95 :: w ++ joined r end.

(** [first_word_second] becomes [firstWordSecond]: every string is words without
    underscores joined by underscores, and the JSON name is the first word
    followed by the others with an upper-case first letter. *)
Lemma json_word up w r : ~ In 95 w -> json_name_from up (w ++ r) =
  match w with [] => json_name_from up r | _ => (if up then capital w else w) ++ json_name_from false r end.
Proof.
  revert up. induction w as [|c w IH]; intros up H; [reflexivity|].
  cbn [app json_name_from]. destruct (N.eqb_spec c underscore) as [-> |Hc]; [exfalso; apply H; left; reflexivity|].
  assert (json_name_from false (w ++ r) = w ++ json_name_from false r) as E.
  { rewrite IH by (intros Hi; apply H; right; exact Hi). destruct w; reflexivity. }
  destruct up; cbn [capital app]; rewrite E; reflexivity.
Qed.
Theorem C28_json_name_camel w ws : (forall x, In x (w :: ws) -> ~ In 95 x) ->
  to_json_name (w ++ joined ws) = w ++ concat (map capital ws).
Proof.
  intros H. unfold to_json_name.
  assert (forall ws up, (forall x, In x ws -> ~ In 95 x) -> json_name_from up (joined ws) = concat (map capital ws)) as J.
  { clear. intros ws. induction ws as [|w ws IH]; intros up H; [reflexivity|].
    cbn [joined json_name_from map concat]. change (95 =? underscore) with true. cbv iota.
    assert (forall x, In x ws -> ~ In 95 x) as H' by (intros x Hx; apply H; right; exact Hx).
    rewrite json_word by (apply H; left; reflexivity). destruct w as [|c w]; [apply IH; exact H'|]. rewrite IH by exact H'. reflexivity. }
  assert (forall x, In x ws -> ~ In 95 x) as H' by (intros x Hx; apply H; right; exact Hx).
  rewrite json_word by (apply H; left; reflexivity). destruct w as [|c w]; rewrite J by exact H'; reflexivity.
Qed.
Print Assumptions C28_json_name_camel.
Theorem C28_every_name_is_words s : exists w ws, s = w ++ joined ws /\ (forall x, In x (w :: ws) -> ~ In 95 x).
Proof.
  induction s as [|c s [w [ws [-> H]]]].
  - exists [], []. split; [reflexivity|]. intros x [<- |[]] [].
  - destruct (N.eqb_spec c 95) as [-> |Hc].
    + exists [], (w :: ws). split; [reflexivity|]. intros x [<- |Hx]; [intros []|]. apply H. exact Hx.
    + exists (c :: w), ws. split; [reflexivity|]. intros x [<- |Hx].
      * intros [-> |Hi]; [contradiction|]. exact (H w (or_introl eq_refl) Hi).
      * apply H. right. exact Hx.
Qed.
Print Assumptions C28_every_name_is_words.
Theorem C28_upper c : upper c = if (97 <=? c) && (c <=? 122) then c - 32 else c.
Proof. reflexivity. Qed.
Example C28_example :
  to_json_name (b "foo_bar") = b "fooBar" /\ to_json_name (b "_foo__bar_9x_") = b "FooBar9x" /\ to_json_name (b "fooBar") = b "fooBar".
Proof. repeat split; vm_compute; reflexivity. Qed.

(** ** C26 *)

(** A declared field as the API shows it. *)
Definition shows (fd : fproto) (v : fdl) : Prop :=
  fd_name v = fp_name fd /\ Z.of_N (fd_number v) = fp_number fd /\ fd_card v = fp_label fd /\
  fd_json v = match fp_json fd with Some j => j | None => to_json_name (fp_name fd) end /\
  (fd_oneof v = None <-> fp_oneof fd = None).

(** Every message of every pool is a message declared in a file of the pool; its
    fields are the declared ones; numbers, names and JSON names are unique;
    numbers are legal and not reserved, and not in an extension range (for
    fields without an extendee). *)
Theorem C26_fields_declared X p i mi : search_ok X -> reachable X p -> nth_error (p_messages p) i = Some mi ->
  exists f dm scope,
    nth_error (pool_files p) (id_file (m_id mi)) = Some f /\
    message_at f (id_path (m_id mi)) scope dm /\ id_full (m_id mi) = dotted scope (dp_name dm) /\
    Forall2 shows (dp_fields dm) (msg_fields_index (p_tables p) i) /\
    NoDup (map fp_number (dp_fields dm)) /\ NoDup (map fp_name (dp_fields dm)) /\
    NoDup (map fd_json (msg_fields_index (p_tables p) i)) /\
    forall fd, In fd (dp_fields dm) ->
      (1 <= fp_number fd <= 536870911)%Z /\ ~ (19000 <= fp_number fd <= 19999)%Z /\
      (forall lo hi, In (lo, hi) (dp_reserved dm) -> ~ (lo <= fp_number fd < hi)%Z) /\
      (fp_extendee fd = None -> forall lo hi, In (lo, hi) (dp_ext_ranges dm) -> ~ (lo <= fp_number fd < hi)%Z).
Proof.
  intros SO R Hm. pose proof (reachable_Inv _ _ SO R) as I.
  destruct (message_decl X p i mi I Hm) as (f & dm & scope & n0 & Hf & Hd & Hfull & _ & _ & _ & F & _ & _).
  exists f, dm, scope. split; [exact Hf|]. split; [exact Hd|]. split; [exact Hfull|].
  pose proof (field_decl _ _ _ _ _ _ _ _ _ F) as FD.
  assert (forall fd x, (exists j, fspec X n0 p dm (EvField (id_path (m_id mi) ++ [2%Z; pos j]) (dotted (id_full (m_id mi)) (fp_name fd)) (id_file (m_id mi)) i j fd) x) ->
     legal_number (fp_number fd) = true /\
     (forall r, In r (dp_reserved dm) -> in_range r (fp_number fd) = false) /\
     existsb (fun r => in_range r (fp_number fd)) (dp_ext_ranges dm) = match fp_extendee fd with Some _ => true | None => false end /\
     f_number x = as_u32 (fp_number fd) /\ f_json x = json_of fd /\ id_name (f_id x) = fp_name fd /\ f_card x = fp_label fd /\
     f_oneof x = option_map Z.to_nat (fp_oneof fd)) as SP.
  { intros fd x [j (g & k & d & _ & N & _ & _ & _ & ->)]. destruct N as (id & f' & mp & N1 & N2 & N3 & N4 & N5 & N6).
    unfold mids in N1. rewrite nth_error_map, Hm in N1. apply Some_inj in N1. subst id.
    unfold raws in N2. unfold pool_files in Hf. rewrite Hf in N2. apply Some_inj in N2. subst f'.
    rewrite (message_at_found _ _ _ _ Hd) in N3. apply Some_inj in N3. subst mp.
    repeat (split; [assumption || reflexivity|]). split; [apply id_name_mk|]. split; reflexivity. }
  unfold msg_fields_index. cbn [p_tables t_messages]. rewrite Hm. split; [|split; [|split; [|split]]].
  - clear - FD SP. revert FD. generalize (m_fields mi). intros l FD. induction FD as [|fd x fds xs H FD IH]; cbn [map]; constructor; [|exact IH].
    destruct (SP _ _ H) as (S1 & S2 & S3 & S4 & S5 & S6 & S7 & S8).
    unfold shows. cbn. rewrite S4, S5, S6, S7, S8. split; [reflexivity|]. split; [apply as_u32_legal; exact S1|]. split; [reflexivity|]. split; [reflexivity|].
    destruct (fp_oneof fd); cbn; split; discriminate || reflexivity.
  - (* numbers *)
    assert (NoDup (map f_number (m_fields mi))) as ND.
    { apply NoDup_nth_error. intros a c Ha E. rewrite map_length in Ha.
      destruct (nth_error (m_fields mi) a) as [x|] eqn:Ex; [|apply nth_error_None in Ex; lia].
      rewrite !nth_error_map, Ex in E. cbn in E. destruct (nth_error (m_fields mi) c) as [y|] eqn:Ey; [|discriminate]. cbn in E.
      apply Some_inj in E. pose proof (proj2 (fo_numbers _ _ _ _ _ _ F (f_number x) a) (ex_intro _ x (conj Ex eq_refl))) as Q1.
      pose proof (proj2 (fo_numbers _ _ _ _ _ _ F (f_number x) c) (ex_intro _ y (conj Ey (eq_sym E)))) as Q2. congruence. }
    assert (map f_number (m_fields mi) = map as_u32 (map fp_number (dp_fields dm))) as E.
    { clear - FD SP. rewrite map_map. induction FD as [|fd x fds xs H FD IH]; cbn; [reflexivity|]. f_equal; [|exact IH]. apply (SP _ _ H). }
    rewrite E in ND. eapply NoDup_map_inv. exact ND.
  - pose proof (fo_names_nd _ _ _ _ _ _ F) as ND. unfold g_fields in ND. rewrite mapi_map in ND. cbn [ev_fname] in ND.
    replace (map fp_name (dp_fields dm)) with (mapi 0 (fun (_ : nat) (a : fproto) => fp_name a) (dp_fields dm)); [exact ND|].
    generalize 0%nat. generalize (dp_fields dm). clear. induction l; intros n; cbn; [reflexivity|]. f_equal. auto.
  - rewrite map_map. exact (fo_jsons_nd _ _ _ _ _ _ F).
  - intros fd Hi. apply In_nth_error in Hi. destruct Hi as [k Hk]. destruct (F2_nth_l _ _ _ FD _ _ Hk) as [x [_ Hx]].
    destruct (SP _ _ Hx) as (S1 & S2 & S3 & _). clear - S1 S2 S3.
    unfold legal_number in S1. apply andb_true_iff in S1. destruct S1 as [A B].
    apply negb_true_iff in B. unfold in_range in *. cbn [fst snd] in *.
    apply andb_true_iff in A. destruct A as [A1 A2]. apply Z.leb_le in A1. apply Z.ltb_lt in A2.
    split; [lia|]. split.
    { intros [Q1 Q2]. apply andb_false_iff in B. destruct B as [B|B]; [apply Z.leb_gt in B|apply Z.ltb_ge in B]; lia. }
    split.
    + intros lo hi Hr [Q1 Q2]. specialize (S2 _ Hr). cbn [fst snd] in S2. apply andb_false_iff in S2.
      destruct S2 as [B'|B']; [apply Z.leb_gt in B'|apply Z.ltb_ge in B']; lia.
    + intros En lo hi Hr [Q1 Q2]. rewrite En in S3. rewrite <- not_true_iff_false in S3. apply S3. apply existsb_exists.
      exists (lo, hi). split; [exact Hr|]. cbn. apply andb_true_iff. split; [apply Z.leb_le|apply Z.ltb_lt]; lia.
Qed.
Print Assumptions C26_fields_declared.

Lemma assoc_mapi {A} (g : A -> str) l : NoDup (map g l) -> forall k n j,
  assoc_s n (mapi k (fun j a => (g a, j)) l) = Some j <-> exists i a, j = (k + i)%nat /\ nth_error l i = Some a /\ g a = n.
Proof.
  intros ND k n j. split.
  - intros H. apply assoc_s_In in H. apply mapi_in_nth in H. destruct H as [i [a [E H]]]. inversion E; subst. eauto.
  - intros [i [a [-> [H <-]]]]. apply nodup_assoc; [rewrite map_mapi_fst; exact ND|]. 
    exact (mapi_incl (fun j a => (g a, j)) l k i a H).
Qed.

Lemma views_sorted t mi l : bt_sorted l ->
  (forall nj, In nj l -> exists x, nth_error (m_fields mi) (snd nj) = Some x /\ f_number x = fst nj) ->
  StronglySorted (fun a b => fd_number a < fd_number b) (filter_some (map (fun ni => view_at t mi (snd ni)) l)).
Proof.
  induction l as [|[n j] l IH]; intros S NM; cbn [map filter_some]; [constructor|].
  destruct (NM (n, j) (or_introl eq_refl)) as [x [Hx En]]. cbn [snd fst] in *. unfold view_at at 1. rewrite Hx. cbn [option_map].
  destruct S as [Fa S']. constructor; [apply IH; [exact S'|intros; apply NM; right; assumption]|].
  apply Forall_forall. intros v Hv.
  assert (exists nj, In nj l /\ view_at t mi (snd nj) = Some v) as [nj [H1 H2]].
  { revert Hv. clear. induction l as [|a l IH]; cbn; [intros []|]. destruct (view_at t mi (snd a)) eqn:E.
    - intros [<- |H]; [exists a; auto|]. destruct (IH H) as [nj [A B]]. exists nj; auto.
    - intros H. destruct (IH H) as [nj [A B]]. exists nj; auto. }
  destruct (NM nj (or_intror H1)) as [y [Hy Ey]]. unfold view_at in H2. rewrite Hy in H2. apply Some_inj in H2. subst v. cbn.
  rewrite Forall_forall in Fa. specialize (Fa _ H1). cbn in Fa. lia.
Qed.

(** Lookups by number, name and JSON name return exactly the field that carries
    it, and enumeration by number is in increasing order. *)
Theorem C26_field_lookups X p i mi : search_ok X -> reachable X p -> nth_error (p_messages p) i = Some mi ->
  let all := msg_fields_index (p_tables p) i in
  (forall n v, get_field (p_tables p) i n = Some v <-> In v all /\ fd_number v = n) /\
  (forall n v, get_field_by_name (p_tables p) i n = Some v <-> In v all /\ fd_name v = n) /\
  (forall n v, get_field_by_json (p_tables p) i n = Some v <-> In v all /\ fd_json v = n) /\
  Permutation (msg_fields (p_tables p) i) all /\
  StronglySorted (fun a b => fd_number a < fd_number b) (msg_fields (p_tables p) i).
Proof.
  intros SO R Hm all. pose proof (reachable_Inv _ _ SO R) as I.
  destruct (message_decl X p i mi I Hm) as (f & dm & scope & n0 & Hf & Hd & Hfull & _ & _ & _ & F & _ & _).
  pose proof (field_decl _ _ _ _ _ _ _ _ _ F) as FD.
  assert (all = map (field_view (p_tables p) mi) (m_fields mi)) as Ea.
  { unfold all, msg_fields_index. cbn [p_tables t_messages]. rewrite Hm. reflexivity. }
  assert (forall v, In v all <-> exists j, view_at (p_tables p) mi j = Some v) as Iv.
  { intros v. rewrite Ea, in_map_iff. unfold view_at. split.
    - intros [x [<- Hx]]. apply In_nth_error in Hx. destruct Hx as [j Hj]. exists j. rewrite Hj. reflexivity.
    - intros [j Hj]. destruct (nth_error (m_fields mi) j) as [x|] eqn:E; [|discriminate]. apply Some_inj in Hj. exists x.
      split; [exact Hj|eapply nth_error_In; exact E]. }
  assert (forall n v, get_field (p_tables p) i n = Some v <-> In v all /\ fd_number v = n) as G1.
  { intros n v. unfold get_field. cbn [p_tables t_messages]. rewrite Hm. fold (p_tables p). rewrite Iv. split.
    - destruct (bt_get n (m_numbers mi)) as [j|] eqn:E; [|discriminate]. intros H. split; [eauto|].
      apply (fo_numbers _ _ _ _ _ _ F) in E. destruct E as [x [Ex <-]]. unfold view_at in H. rewrite Ex in H. apply Some_inj in H. subst v. reflexivity.
    - intros [[j Hj] <-]. pose proof Hj as Hv. unfold view_at in Hj. destruct (nth_error (m_fields mi) j) as [x|] eqn:E; [|discriminate].
      apply Some_inj in Hj. subst v. cbn [field_view fd_number]. rewrite (proj2 (fo_numbers _ _ _ _ _ _ F _ j) (ex_intro _ x (conj E eq_refl))). exact Hv. }
  assert (StronglySorted (fun a b => fd_number a < fd_number b) (msg_fields (p_tables p) i)) as SS.
  { unfold msg_fields. cbn [p_tables t_messages]. rewrite Hm. apply views_sorted; [exact (fo_sorted _ _ _ _ _ _ F)|].
    intros [n j] H. apply (bt_In_get n j) in H; [|exact (fo_sorted _ _ _ _ _ _ F)]. apply (fo_numbers _ _ _ _ _ _ F) in H. exact H. }
  split; [exact G1|]. split; [|split; [|split]].
  - intros n v. unfold get_field_by_name. cbn [p_tables t_messages]. rewrite Hm. fold (p_tables p). rewrite Iv.
    assert (forall j x, nth_error (m_fields mi) j = Some x -> exists e, nth_error (g_fields (id_file (m_id mi)) i (id_path (m_id mi)) (id_full (m_id mi)) (dp_fields dm)) j = Some e /\ ev_fname e = id_name (f_id x)) as NX.
    { intros j x Hx. destruct (F2_nth_r _ _ _ (fo_fields _ _ _ _ _ _ F) _ _ Hx) as [e [He Sp]]. exists e. split; [exact He|].
      unfold g_fields in He. rewrite mapi_nth in He. destruct (nth_error (dp_fields dm) j); [|discriminate]. cbn in He. apply Some_inj in He. subst e.
      destruct Sp as (g & k & d & _ & _ & _ & _ & _ & ->). symmetry. apply id_name_mk. }
    pose proof (assoc_mapi ev_fname _ (fo_names_nd _ _ _ _ _ _ F) 0%nat n) as AM. rewrite (fo_names _ _ _ _ _ _ F).
    split.
    + destruct (assoc_s n _) as [j|] eqn:E; [|discriminate]. destruct (proj1 (AM j) eq_refl) as [k [e [-> [E1 E2]]]]. intros H. cbn in H.
      split; [eauto|]. pose proof H as H'. unfold view_at in H'. destruct (nth_error (m_fields mi) k) as [x|] eqn:Ex; [|discriminate].
      apply Some_inj in H'. subst v. destruct (NX _ _ Ex) as [e' [Q1 Q2]]. rewrite E1 in Q1. apply Some_inj in Q1. subst e'. cbn. congruence.
    + intros [[j Hj] <-]. pose proof Hj as Hv. unfold view_at in Hj. destruct (nth_error (m_fields mi) j) as [x|] eqn:Ex; [|discriminate].
      apply Some_inj in Hj. subst v. destruct (NX _ _ Ex) as [e [Q1 Q2]]. cbn [field_view fd_name] in *.
      rewrite (proj2 (AM j)); [exact Hv|]. exists j, e. auto.
  - intros n v. unfold get_field_by_json. cbn [p_tables t_messages]. rewrite Hm. fold (p_tables p). rewrite Iv.
    pose proof (assoc_mapi f_json _ (fo_jsons_nd _ _ _ _ _ _ F) 0%nat n) as AM. rewrite (fo_jsons _ _ _ _ _ _ F).
    split.
    + destruct (assoc_s n _) as [j|] eqn:E; [|discriminate]. destruct (proj1 (AM j) eq_refl) as [k [e [-> [E1 E2]]]]. intros H. cbn in H.
      split; [eauto|]. unfold view_at in H. rewrite E1 in H. apply Some_inj in H. subst v. exact E2.
    + intros [[j Hj] <-]. pose proof Hj as Hv. unfold view_at in Hj. destruct (nth_error (m_fields mi) j) as [x|] eqn:Ex; [|discriminate].
      apply Some_inj in Hj. subst v. cbn [field_view fd_json] in *. rewrite (proj2 (AM j)); [exact Hv|]. exists j, x. auto.
  - assert (forall v, In v (msg_fields (p_tables p) i) <-> In v all) as S2.
    { intros v. rewrite Iv. unfold msg_fields. cbn [p_tables t_messages]. rewrite Hm. fold (p_tables p). split.
      * intros Hv. clear - Hv. revert Hv. generalize (m_numbers mi). induction l as [|a l IH]; cbn; [intros []|].
        destruct (view_at (p_tables p) mi (snd a)) eqn:E; [intros [<- |H]; eauto|eauto].
      * intros [j Hj]. pose proof Hj as Hv. unfold view_at in Hj. destruct (nth_error (m_fields mi) j) as [x|] eqn:Ex; [|discriminate].
        pose proof (proj2 (fo_numbers _ _ _ _ _ _ F (f_number x) j) (ex_intro _ x (conj Ex eq_refl))) as Q. apply bt_get_In in Q.
        revert Q. generalize (m_numbers mi). clear - Hv. induction l as [|a l IH]; [intros []|]. intros [-> |H]; cbn [map filter_some snd].
        -- rewrite Hv. left. reflexivity.
        -- specialize (IH H). destruct (view_at (p_tables p) mi (snd a)); [right|]; exact IH. }
    apply NoDup_Permutation; [| |exact S2].
    + clear - SS. induction SS as [|a l H IH F]; constructor; [|exact IH]. intros Hi. rewrite Forall_forall in F. specialize (F _ Hi). lia.
    + apply (NoDup_map_inv fd_number). rewrite Ea, map_map. cbn.
      apply NoDup_nth_error. intros a c Ha E. rewrite map_length in Ha.
      destruct (nth_error (m_fields mi) a) as [x|] eqn:Ex; [|apply nth_error_None in Ex; lia].
      rewrite !nth_error_map, Ex in E. cbn in E. destruct (nth_error (m_fields mi) c) as [y|] eqn:Ey; [|discriminate]. cbn in E.
      apply Some_inj in E. pose proof (proj2 (fo_numbers _ _ _ _ _ _ F (f_number x) a) (ex_intro _ x (conj Ex eq_refl))) as Q1.
      pose proof (proj2 (fo_numbers _ _ _ _ _ _ F (f_number x) c) (ex_intro _ y (conj Ey (eq_sym E)))) as Q2. congruence.
  - exact SS.
Qed.
Print Assumptions C26_field_lookups.

Example C26_nonvacuous :
  reachable demo_externs pool_abcd /\ (exists mi, nth_error (p_messages pool_abcd) 0 = Some mi) /\
  map (fun v => (fd_name v, fd_number v, fd_json v)) (msg_fields_index (p_tables pool_abcd) 0) =
    [(b "foo_bar", 1, b "fooBar"); (b "self", 2, b "self"); (b "in", 3, b "in"); (b "e", 4, b "e"); (b "x", 5, b "x")].
Proof.
  split; [exact reach_abcd|]. split; [|vm_compute; reflexivity].
  destruct (nth_error (p_messages pool_abcd) 0) eqn:E; [eauto|]. vm_compute in E. discriminate.
Qed.

(** ** C27 *)

(** Every enum of every pool is an enum declared in a file of the pool, with the
    declared values in order; names are unique, and numbers are unless aliases
    are allowed; no number is reserved; there is a value, in proto3 files the
    first one is zero. *)
Theorem C27_values_declared X p i ei : search_ok X -> reachable X p -> nth_error (p_enums p) i = Some ei ->
  exists f en scope,
    nth_error (pool_files p) (id_file (e_id ei)) = Some f /\
    enum_at f (id_path (e_id ei)) scope en /\ id_full (e_id ei) = dotted scope (ep_name en) /\
    map (fun v => (id_name (ev_id v), ev_number v)) (e_values ei) = ep_values en /\
    NoDup (map fst (ep_values en)) /\
    (allow_alias en = false -> NoDup (map snd (ep_values en))) /\
    (forall n z lo hi, In (n, z) (ep_values en) -> In (lo, hi) (ep_reserved en) -> ~ (lo <= z <= hi)%Z) /\
    ep_values en <> [] /\
    (syntax_at (p_files p) (id_file (e_id ei)) = Some Proto3 -> option_map snd (nth_error (ep_values en) 0) = Some 0%Z).
Proof.
  intros SO R He. pose proof (reachable_Inv _ _ SO R) as I.
  destruct (enum_decl X p i ei I He) as (f & en & scope & sc & Hf & Hd & Hfull & _ & V1 & V2 & V & NE & P3).
  exists f, en, scope. split; [exact Hf|]. split; [exact Hd|]. split; [exact Hfull|].
  assert (forall {C} (h : str * Z -> C), map (fun e => h (ev_value e)) (g_values (id_file (e_id ei)) i (id_path (e_id ei)) sc (ep_values en)) = map h (ep_values en)) as EM.
  { intros C h. unfold g_values. generalize 0%nat. generalize (ep_values en). clear. induction l as [|a l IH]; intros n; cbn; [reflexivity|]. f_equal. apply IH. }
  split.
  { rewrite V1. unfold g_values. rewrite map_map. generalize 0%nat. generalize (ep_values en). clear.
    induction l as [|[n z] l IH]; intros k; [reflexivity|]. cbn [mapi map]. f_equal; [|apply IH].
    cbn [mk_value ev_id ev_number]. f_equal. apply id_name_mk. }
  split; [rewrite <- (EM _ fst); exact (vo_names_nd _ _ _ _ _ V)|].
  split; [intros Ha; rewrite <- (EM _ snd); exact (vo_alias _ _ _ _ _ V Ha)|].
  split.
  { intros n z lo hi Hi Hr [Q1 Q2]. pose proof (vo_reserved _ _ _ _ _ V) as VR. rewrite Forall_forall in VR.
    rewrite <- (map_id (ep_values en)), <- (EM _ (fun x => x)) in Hi. apply in_map_iff in Hi. destruct Hi as [e [Ee Hi]].
    destruct (VR _ Hi) as (id & f' & ep & N1 & N2 & N3 & N4).
    unfold eids in N1. rewrite nth_error_map, He in N1. apply Some_inj in N1. subst id.
    unfold raws in N2. unfold pool_files in Hf. rewrite Hf in N2. apply Some_inj in N2. subst f'.
    rewrite (enum_at_found _ _ _ _ Hd) in N3. apply Some_inj in N3. subst ep.
    specialize (N4 _ Hr). rewrite Ee in N4. unfold in_range_incl in N4. cbn in N4.
    apply andb_false_iff in N4. destruct N4 as [B|B]; apply Z.leb_gt in B; lia. }
  split; [exact NE|]. intros Hp. destruct (P3 Hp) as [v [vs [-> Hv]]]. cbn. rewrite Hv. reflexivity.
Qed.
Print Assumptions C27_values_declared.

(** Lookups find exactly the values there are, and the enumeration by number
    holds every value once, in order. *)
Theorem C27_value_lookups X p i ei : search_ok X -> reachable X p -> nth_error (p_enums p) i = Some ei ->
  let number j z := exists v, nth_error (e_values ei) j = Some v /\ ev_number v = z in
  let name j n := exists v, nth_error (e_values ei) j = Some v /\ id_name (ev_id v) = n in
  (forall z j, get_value X ei z = Some j -> number j z) /\
  (forall z, get_value X ei z = None -> forall j, ~ number j z) /\
  (forall n j, get_value_by_name ei n = Some j <-> name j n) /\
  Permutation (values ei) (seq 0 (length (e_values ei))) /\
  StronglySorted (fun a c => forall za zc, number a za -> number c zc -> (za <= zc)%Z) (values ei).
Proof.
  intros SO R He number name. pose proof (reachable_Inv _ _ SO R) as I.
  destruct (enum_decl X p i ei I He) as (f & en & scope & sc & Hf & Hd & Hfull & _ & V1 & V2 & V & _ & _).
  set (ks := g_values (id_file (e_id ei)) i (id_path (e_id ei)) sc (ep_values en)) in *.
  assert (forall j v, nth_error (e_values ei) j = Some v <-> exists e, nth_error ks j = Some e /\ mk_value e = v) as EV.
  { intros j v. rewrite V1, nth_error_map. destruct (nth_error ks j); cbn; split.
    - intros H. apply Some_inj in H. eauto.
    - intros [e' [H <-]]. apply Some_inj in H. subst. reflexivity.
    - discriminate.
    - intros [e' [H _]]. discriminate. }
  assert (forall j e, nth_error ks j = Some e -> ev_number (mk_value e) = snd (ev_value e) /\ id_name (ev_id (mk_value e)) = fst (ev_value e)) as EK.
  { intros j e H. unfold ks, g_values in H. rewrite mapi_nth in H. destruct (nth_error (ep_values en) j); [|discriminate]. cbn in H.
    apply Some_inj in H. subst e. split; [reflexivity|]. apply id_name_mk. }
  assert (forall z j, In (z, j) (e_numbers ei) <-> number j z) as NU.
  { intros z j. split.
    - intros H. apply (Permutation_in _ (vo_perm _ _ _ _ _ V)) in H. apply mapi_in_nth in H. destruct H as [k [e [E H]]]. inversion E; subst.
      exists (mk_value e). split; [apply EV; exists e; split; [exact H|reflexivity]|]. apply (EK _ _ H).
    - intros [v [Hv <-]]. apply EV in Hv. destruct Hv as [e [H <-]]. rewrite (proj1 (EK _ _ H)).
      apply (Permutation_in _ (Permutation_sym (vo_perm _ _ _ _ _ V))). exact (mapi_incl (fun j e => (snd (ev_value e), j)) ks 0 j e H). }
  pose proof (SO (e_numbers ei)) as SS.
  split; [|split; [|split; [|split]]].
  - intros z j H. unfold get_value in H. specialize (SS z (vo_sorted _ _ _ _ _ V)). destruct (x_search X (e_numbers ei) z) as [q fd].
    destruct fd; [|discriminate]. destruct SS as [k Hk]. rewrite Hk in H. apply Some_inj in H. cbn in H. subst k.
    apply NU. eapply nth_error_In. exact Hk.
  - intros z H j Hn. apply NU in Hn. unfold get_value in H. specialize (SS z (vo_sorted _ _ _ _ _ V)). destruct (x_search X (e_numbers ei) z) as [q fd].
    destruct fd.
    + destruct SS as [k Hk]. rewrite Hk in H. discriminate.
    + destruct SS as [_ [S1 S2]]. rewrite <- (firstn_skipn q (e_numbers ei)) in Hn. apply in_app_or in Hn.
      destruct Hn as [Hn|Hn]; [specialize (S1 _ Hn)|specialize (S2 _ Hn)]; cbn in *; lia.
  - intros n j. unfold get_value_by_name. rewrite (vo_names _ _ _ _ _ V).
    rewrite (assoc_mapi (fun e => fst (ev_value e)) ks (vo_names_nd _ _ _ _ _ V) 0%nat n j). split.
    + intros [k [e [-> [H <-]]]]. exists (mk_value e). split; [apply EV; exists e; split; [exact H|reflexivity]|]. apply (EK _ _ H).
    + intros [v [Hv <-]]. apply EV in Hv. destruct Hv as [e [H <-]]. exists j, e. split; [reflexivity|]. split; [exact H|].
      symmetry. apply (EK _ _ H).
  - unfold values. eapply Permutation_trans; [apply Permutation_map; exact (vo_perm _ _ _ _ _ V)|].
    rewrite mapi_map. cbn [snd]. rewrite V1, map_length. generalize 0%nat. generalize ks. clear.
    induction ks as [|a l IH]; intros n; cbn; [constructor|]. constructor. apply IH.
  - pose proof (vo_sorted _ _ _ _ _ V) as S. unfold values.
    assert (forall z j, In (z, j) (e_numbers ei) -> forall z', number j z' -> z' = z) as UN.
    { intros z j H z' H'. apply NU in H. destruct H as [v [A B]]. destruct H' as [v' [A' B']]. congruence. }
    revert S UN. generalize (e_numbers ei). clear. induction l as [|[z j] l IH]; intros S UN; cbn; [constructor|].
    inversion S as [|? ? S' Fa]; subst. constructor; [apply IH; [exact S'|intros; eapply UN; [right; eassumption|assumption]]|].
    apply Forall_forall. intros c Hc za zc Ha Hzc. apply in_map_iff in Hc. destruct Hc as [[z' j'] [<- Hc]]. cbn in *.
    rewrite (UN _ _ (or_introl eq_refl) _ Ha), (UN _ _ (or_intror Hc) _ Hzc). rewrite Forall_forall in Fa. exact (Fa _ Hc).
Qed.
Print Assumptions C27_value_lookups.
Example C27_nonvacuous :
  reachable demo_externs pool_abcd /\
  (exists ei, nth_error (p_enums pool_abcd) 1 = Some ei /\
     map (fun v => (id_name (ev_id v), ev_number v)) (e_values ei) = [(b "E_TWO", 2%Z); (b "E_ZERO", 0%Z); (b "E_TWO_AGAIN", 2%Z)] /\
     map snd (e_numbers ei) <> [0; 1; 2]%nat /\ get_value_by_name ei (b "E_ZERO") = Some 1%nat /\ get_value demo_externs ei 5 = None).
Proof.
  split; [exact reach_abcd|].
  destruct (nth_error (p_enums pool_abcd) 1) eqn:E; [|vm_compute in E; discriminate]. vm_compute in E. apply Some_inj in E. subst e.
  eexists. split; [reflexivity|]. split; [vm_compute; reflexivity|]. split; [vm_compute; discriminate|]. split; vm_compute; reflexivity.
Qed.
(** Two values with one number and no [allow_alias]: rejected. *)
Definition alias_file (alias : option (bool * list uninterp)) : file :=
  File (b "al.proto") (b "al") [] [] [] [] [EP (b "E") [(b "A", 0%Z); (b "B", 0%Z)] [] alias] [] [] None.
Example C27_alias_rejected :
  build_files demo_externs 10 empty_pool [alias_file None] <> Built (built (build_files demo_externs 10 empty_pool [alias_file None])) /\
  build_files demo_externs 10 empty_pool [alias_file (Some (true, []))] = Built (built (build_files demo_externs 10 empty_pool [alias_file (Some (true, []))])).
Proof. split; [vm_compute; discriminate|vm_compute; reflexivity]. Qed.

(** ** C28 in pools *)

(** The JSON name is the declared one or the default, and no two fields of a
    message share one. *)
Theorem C28_json_names_distinct X p i mi : search_ok X -> reachable X p -> nth_error (p_messages p) i = Some mi ->
  NoDup (map fd_json (msg_fields_index (p_tables p) i)) /\
  (exists f dm scope, nth_error (pool_files p) (id_file (m_id mi)) = Some f /\ message_at f (id_path (m_id mi)) scope dm /\
    map fd_json (msg_fields_index (p_tables p) i) =
    map (fun fd => match fp_json fd with Some j => j | None => to_json_name (fp_name fd) end) (dp_fields dm)).
Proof.
  intros SO R Hm. destruct (C26_fields_declared X p i mi SO R Hm) as (f & dm & scope & Hf & Hd & _ & F & _ & _ & N & _).
  split; [exact N|]. exists f, dm, scope. split; [exact Hf|]. split; [exact Hd|].
  clear N. induction F as [|fd v fds vs H F IH]; cbn; [reflexivity|]. f_equal; [apply H|exact IH].
Qed.
Print Assumptions C28_json_names_distinct.
(** In proto3 files the names may not even collide after dropping underscores
    and case. *)
Theorem C28_proto3_names_apart X p i mi : search_ok X -> reachable X p -> nth_error (p_messages p) i = Some mi ->
  syntax_at (p_files p) (id_file (m_id mi)) = Some Proto3 ->
  NoDup (map (fun v => map lower (filter (fun c => negb (c =? 95)) (fd_name v))) (msg_fields_index (p_tables p) i)).
Proof.
  intros SO R Hm H3. pose proof (reachable_Inv _ _ SO R) as I.
  destruct (message_decl X p i mi I Hm) as (f & dm & scope & n0 & Hf & Hd & _ & _ & _ & _ & F & _ & P3). specialize (P3 H3).
  destruct (C26_fields_declared X p i mi SO R Hm) as (f' & dm' & scope' & Hf' & Hd' & _ & F' & _).
  rewrite Hf in Hf'. apply Some_inj in Hf'. subst f'. apply message_at_found in Hd, Hd'. rewrite Hd in Hd'. apply Some_inj in Hd'. subst dm'.
  replace (map (fun v => map lower (filter (fun c => negb (c =? 95)) (fd_name v))) (msg_fields_index (p_tables p) i))
    with (map (fun x => to_lower_without_underscores (fp_name x)) (dp_fields dm)); [exact P3|].
  clear P3 Hd F. induction F' as [|fd v fds vs H F IH]; cbn; [reflexivity|]. f_equal; [|exact IH].
  rewrite (proj1 H). reflexivity.
Qed.
Print Assumptions C28_proto3_names_apart.
