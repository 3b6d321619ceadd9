(** The resolve phase of earlier files with the names of later files present
    (for C64). *)
From Verif Require Import Base BaseProofs Value Descr Proto Build VisitProofs EventProofs BuildFrame BuildNames BuildQuiet BuildResolve DeclSpec JoinSpec Join.
From Coq Require Import List Lia Bool Arith.
Import ListNotations.
Local Open Scope list_scope.
Local Open Scope N_scope.

Definition settled_ev (e : event) : Prop :=
  match e with
  | EvField _ _ _ _ _ fd => settled (fp_type_name fd)
  | EvExt _ _ _ _ _ fd => settled (fp_type_name fd) /\ settled (the_extendee fd)
  | EvMethod _ _ _ _ _ m => settled (mp_input m) /\ settled (mp_output m)
  | _ => True
  end.

(** the names [N3] agree with [N1], and what is only in [N3] belongs to files from [n] on *)
Definition agree (n : nat) (N1 N3 : list (str * def)) : Prop :=
  forall s, assoc_s s N3 = assoc_s s N1 \/
            (assoc_s s N1 = None /\ exists d, assoc_s s N3 = Some d /\ (n <= d_file d)%nat).
Definition low (n : nat) (l : list nat) : Prop := Forall (fun x => (x < n)%nat) l.

Lemma low_not n l x : low n l -> (n <= x)%nat -> existsb (Nat.eqb x) l = false.
Proof.
  induction 1 as [|a l H _ IH]; intros L; [reflexivity|]. cbn. rewrite IH by exact L.
  replace (x =? a)%nat with false by (symmetry; apply Nat.eqb_neq; lia). reflexivity.
Qed.
Lemma lookup_agree n deps N1 N3 s r m d : agree n N1 N3 -> low n deps ->
  (lookup_name deps N3 s r = RFound m d <-> lookup_name deps N1 s r = RFound m d).
Proof.
  intros A L. unfold lookup_name. destruct (A s) as [->|(-> & d' & -> & G)]; [tauto|].
  rewrite (low_not _ _ _ L G). cbn. split; discriminate.
Qed.
Lemma first_part_all s : ~ In dot s -> first_part s = s.
Proof.
  induction s as [|c s IH]; intros H; [reflexivity|]. cbn. cbn in H.
  destruct (N.eqb_spec c dot) as [->|]; [tauto|]. rewrite IH by tauto. reflexivity.
Qed.
Lemma loop_agree n deps N1 N3 r rel parents m d : agree n N1 N3 -> low n deps -> ~ In dot rel ->
  forall e e', (forall m d, e <> RFound m d) -> (forall m d, e' <> RFound m d) ->
  resolve_loop deps N1 r rel parents e = RFound m d -> resolve_loop deps N3 r rel parents e' = RFound m d.
Proof.
  intros A L ND. induction parents as [|pa rest IH]; intros e e' He He' H; cbn [resolve_loop] in *; [destruct (He _ _ H)|].
  rewrite first_part_all, Nat.eqb_refl in * by exact ND.
  pose proof (fun m d => lookup_agree n deps N1 N3 (join_scope pa rel) r m d A L) as K.
  destruct (lookup_name deps N1 (join_scope pa rel) r) as [n1 d1|n1 d1|n1 f1|n1 s1|] eqn:E1.
  - rewrite (proj2 (K n1 d1) eq_refl). exact H.
  - destruct (lookup_name deps N3 (join_scope pa rel) r) as [n3 d3|n3 d3|n3 f3|n3 s3|] eqn:E3;
      [destruct (K n3 d3) as [K1 _]; specialize (K1 eq_refl); discriminate|..];
      (eapply IH; [| |exact H]; intros ? ?; [destruct e|destruct e']; try discriminate; auto).
  - destruct (lookup_name deps N3 (join_scope pa rel) r) as [n3 d3|n3 d3|n3 f3|n3 s3|] eqn:E3;
      [destruct (K n3 d3) as [K1 _]; specialize (K1 eq_refl); discriminate|..];
      (eapply IH; [| |exact H]; intros ? ?; [destruct e|destruct e']; try discriminate; auto).
  - destruct (lookup_name deps N3 (join_scope pa rel) r) as [n3 d3|n3 d3|n3 f3|n3 s3|] eqn:E3;
      [destruct (K n3 d3) as [K1 _]; specialize (K1 eq_refl); discriminate|..];
      (eapply IH; [| |exact H]; intros ? ?; [destruct e|destruct e']; try discriminate; auto).
  - destruct (lookup_name deps N3 (join_scope pa rel) r) as [n3 d3|n3 d3|n3 f3|n3 s3|] eqn:E3;
      [destruct (K n3 d3) as [K1 _]; specialize (K1 eq_refl); discriminate|..];
      (eapply IH; [| |exact H]; intros ? ?; [destruct e|destruct e']; try discriminate; auto).
Qed.
Lemma resolve_agree n deps N1 N3 scope s r m d : agree n N1 N3 -> low n deps -> settled s ->
  resolve_name deps N1 scope s r = RFound m d -> resolve_name deps N3 scope s r = RFound m d.
Proof.
  intros A L [[t ->]|ND] H; unfold resolve_name in *.
  - rewrite N.eqb_refl in *. apply (lookup_agree n deps N1 N3 t r m d A L). exact H.
  - assert (match scope with
            | [] => lookup_name deps N1 s r
            | _ => resolve_loop deps N1 r s (candidate_parents scope) RNotFound
            end = RFound m d ->
            match scope with
            | [] => lookup_name deps N3 s r
            | _ => resolve_loop deps N3 r s (candidate_parents scope) RNotFound
            end = RFound m d) as K.
    { destruct scope as [|c sc]; [apply (lookup_agree n deps N1 N3 s r m d A L)|].
      apply (loop_agree n); auto; discriminate. }
    destruct s as [|c s]; [exact (K H)|]. cbn in ND. destruct (N.eqb_spec c dot) as [->|]; [tauto|]. exact (K H).
Qed.

Section Ahead.
Context (X : externs) (n : nat) (N1 N3 : list (str * def)) (F1 F3 : list (str * nat)) (R : list file)
        (TF : list file_inner) (TM : list message_inner) (TE : list enum_inner).
Hypothesis names_agree : agree n N1 N3.
Hypothesis files_agree : forall s i, assoc_s s F1 = Some i -> assoc_s s F3 = Some i.
Hypothesis files_low : forall s i, assoc_s s F1 = Some i -> (i < n)%nat.
Hypothesis closed : forall f d, In f R -> In d (fl_deps f) -> assoc_s d F1 <> None.

(** [p] with the later names, and entries after its own *)
Definition ahead (p : pool) : pool :=
  Pool N3 F3 (p_files p ++ TF) (p_messages p ++ TM) (p_enums p ++ TE) (p_exts p) (p_services p).
Definition early (p : pool) : Prop :=
  p_names p = N1 /\ p_file_names p = F1 /\ raws p = R /\ Forall (fun g => low n (fi_trans g)) (p_files p).

Lemma nth_ahead {A} (l t : list A) i a : nth_error l i = Some a -> nth_error (l ++ t) i = Some a.
Proof. intros H. rewrite nth_error_app1; [exact H|]. apply nth_error_Some. congruence. Qed.
Lemma at_ahead {A} (l t : list A) i a : at_ l i = Ok a -> at_ (l ++ t) i = Ok a.
Proof. rewrite !at_ok. apply nth_ahead. Qed.
Lemma at_len {A} (l : list A) i a : at_ l i = Ok a -> (i < length l)%nat.
Proof. rewrite at_ok. intros H. apply nth_error_Some. congruence. Qed.

Lemma noisy {A} ls e v (v' : vst) (o : A) : rbind (push_err ls e v) (fun w => Ok (o, w)) = Ok (o, v') -> v_errs v' = [] -> False.
Proof. intros H E. apply rbind_ok in H. destruct H as (w & H & K). injection K as ->. exact (noisy_push _ _ _ _ H E). Qed.

Lemma ref_ahead scope name f path tag r p o v : early p -> settled name ->
  resolve_ref scope name f path tag r (V p []) = Ok (o, v) -> v_errs v = [] ->
  v = V p [] /\ resolve_ref scope name f path tag r (V (ahead p) []) = Ok (o, V (ahead p) []).
Proof.
  intros (EN & _ & _ & EL) ST H Q. unfold resolve_ref in *. cbn [v_pool] in *.
  apply rbind_ok in H. destruct H as (fi & A & H).
  change (p_files (ahead p)) with (p_files p ++ TF). rewrite (at_ahead _ _ _ _ A). cbn [rbind].
  assert (low n (fi_trans fi)) as LO.
  { apply at_ok in A. apply nth_error_In in A. rewrite Forall_forall in EL. exact (EL _ A). }
  change (p_names (ahead p)) with N3. rewrite EN in H.
  destruct (resolve_name (fi_trans fi) N1 scope name r) as [m d|m d|m d|m d|] eqn:E;
    try (apply rbind_ok in H; destruct H as (w & H & K); injection K as <- ->; destruct (noisy_push _ _ _ _ H Q)).
  rewrite (resolve_agree n _ N1 N3 _ _ _ _ _ names_agree LO ST E).
  apply rbind_ok in H. destruct H as (u & P & H). rewrite P. cbn [rbind]. injection H as <- <-. split; reflexivity.
Qed.
Lemma find_message_ahead scope name f path tag p o v : early p -> settled name ->
  find_message scope name f path tag (V p []) = Ok (o, v) -> v_errs v = [] ->
  v = V p [] /\ find_message scope name f path tag (V (ahead p) []) = Ok (o, V (ahead p) []).
Proof.
  intros EA ST H Q. unfold find_message in *. apply rbind_ok in H. destruct H as ([d w] & H & K).
  assert (v_errs w = []) as QW.
  { destruct d as [d|]; [|injection K as _ ->; exact Q]. destruct (d_kind d); try discriminate. injection K as _ ->. exact Q. }
  destruct (ref_ahead _ _ _ _ _ _ _ _ _ EA ST H QW) as (-> & ->). cbn [rbind].
  destruct d as [d|]; [|injection K as <- <-; split; reflexivity].
  destruct (d_kind d); try discriminate. injection K as <- <-. split; reflexivity.
Qed.
Lemma type_ahead ty name scope f path p o v : early p -> settled name ->
  resolve_type ty name scope f path (V p []) = Ok (o, v) -> v_errs v = [] ->
  v = V p [] /\ resolve_type ty name scope f path (V (ahead p) []) = Ok (o, V (ahead p) []).
Proof.
  intros EA ST H Q. unfold resolve_type in *. destruct name as [|c name].
  - destruct ty; try (injection H as <- <-; split; reflexivity);
      (apply rbind_ok in H; destruct H as (w & H & K); injection K as <- ->; destruct (noisy_push _ _ _ _ H Q)).
  - apply rbind_ok in H. destruct H as ([d w] & H & K).
    assert (v_errs w = []) as QW.
    { destruct d as [d|]; [|injection K as _ ->; exact Q]. destruct (d_kind d); try discriminate; injection K as _ ->; exact Q. }
    destruct (ref_ahead _ _ _ _ _ _ _ _ _ EA ST H QW) as (-> & ->). cbn [rbind].
    destruct d as [d|]; [|injection K as <- <-; split; reflexivity].
    destruct (d_kind d); try discriminate; injection K as <- <-; split; reflexivity.
Qed.
Lemma default_ahead k fd f p o v :
  default_of X k fd f (V p []) = Ok (o, v) -> v_errs v = [] ->
  v = V p [] /\ default_of X k fd f (V (ahead p) []) = Ok (o, V (ahead p) []).
Proof.
  unfold default_of. destruct k as [k|]; [|intros H; injection H as <- <-; split; reflexivity].
  unfold parse_default. destruct (fp_default fd) as [s|]; [|intros H; injection H as <- <-; split; reflexivity].
  intros H Q. cbn [v_pool] in *.
  destruct k;
    try (apply rbind_ok in H; destruct H as (x & A & H); rewrite A; cbn [rbind]; destruct x;
         [injection H as <- <-; split; reflexivity|]);
    try (apply rbind_ok in H; destruct H as (w & H & K); injection K as <- ->; destruct (noisy_push _ _ _ _ H Q)).
  apply rbind_ok in H. destruct H as (en & A & H). change (p_enums (ahead p)) with (p_enums p ++ TE).
  rewrite (at_ahead _ _ _ _ A). cbn [rbind]. destruct (find _ _); [injection H as <- <-; split; reflexivity|].
  apply rbind_ok in H; destruct H as (w & H & K); injection K as <- ->; destruct (noisy_push _ _ _ _ H Q).
Qed.
Lemma json_ahead fd f path p j : resolve_json fd f path (V p []) = Ok j -> resolve_json fd f path (V (ahead p) []) = Ok j.
Proof.
  unfold resolve_json. destruct (fp_json fd); [auto|]. intros H. apply rbind_ok in H. destruct H as (fi & A & H).
  cbn [v_pool] in *. change (p_files (ahead p)) with (p_files p ++ TF). rewrite (at_ahead _ _ _ _ A). exact H.
Qed.

Lemma number_fine m fd f q : number_spec (raws q) (mids q) m fd -> check_field_number m fd f (V q []) = Ok (V q []).
Proof.
  intros (id & file & mp & A & B & C & D & E & G). unfold check_field_number. rewrite D. cbn [rbind v_pool].
  unfold mids in A. apply nth_map_some in A. destruct A as (mi & A & <-). apply at_ok in A. rewrite A. cbn [rbind].
  unfold raws in B. apply nth_map_some in B. destruct B as (fi & B & <-). apply at_ok in B. rewrite B. cbn [rbind].
  rewrite C. cbn [need rbind].
  assert (forall l, (forall r, In r l -> in_range r (fp_number fd) = false) ->
    fold_res (fun r v => if in_range r (fp_number fd) then push_err [id_file (m_id mi); fst f] (at_spot (inside_spot f [3%Z]) ErrReserved) v else Ok v) l (V q []) = Ok (V q [])) as K.
  { induction l as [|r l IH]; intros K; [reflexivity|]. cbn [fold_res]. rewrite (K r) by (left; reflexivity). cbn [rbind].
    apply IH. intros r' I. apply K. right. exact I. }
  rewrite K by exact E. cbn [rbind]. rewrite G. destruct (fp_extendee fd); reflexivity.
Qed.
Lemma enum_number_fine en z f q : enum_number_spec (raws q) (eids q) en z -> check_enum_number en z f (V q []) = Ok (V q []).
Proof.
  intros (id & file & ep & A & B & C & D). unfold check_enum_number. cbn [v_pool].
  unfold eids in A. apply nth_map_some in A. destruct A as (mi & A & <-). apply at_ok in A. rewrite A. cbn [rbind].
  unfold raws in B. apply nth_map_some in B. destruct B as (fi & B & <-). apply at_ok in B. rewrite B. cbn [rbind].
  rewrite C. cbn [need rbind].
  assert (forall l, (forall r, In r l -> in_range_incl r z = false) ->
    fold_res (fun r v => if in_range_incl r z then push_err [id_file (e_id mi); fst f] (at_spot (inside_spot f [3%Z]) ErrEnumReserved) v else Ok v) l (V q []) = Ok (V q [])) as K.
  { induction l as [|r l IH]; intros K; [reflexivity|]. cbn [fold_res]. rewrite (K r) by (left; reflexivity). cbn [rbind].
    apply IH. intros r' I. apply K. right. exact I. }
  apply K. exact D.
Qed.
Lemma number_ahead m fd f p v : check_field_number m fd f (V p []) = Ok v -> v_errs v = [] ->
  v = V p [] /\ check_field_number m fd f (V (ahead p) []) = Ok (V (ahead p) []).
Proof.
  intros H Q. apply field_number_quiet in H. destruct H as [[-> S]|NQ]; [|contradiction]. split; [reflexivity|].
  apply number_fine. destruct S as (id & file & mp & A & B & S). exists id, file, mp.
  unfold raws, mids, ahead. cbn [p_files p_messages]. rewrite !map_app.
  split; [apply nth_ahead; exact A|]. split; [apply nth_ahead; exact B|]. exact S.
Qed.
Lemma enum_number_ahead en z f p : enum_number_spec (raws p) (eids p) en z ->
  check_enum_number en z f (V (ahead p) []) = Ok (V (ahead p) []).
Proof.
  intros S. apply enum_number_fine. destruct S as (id & file & mp & A & B & S). exists id, file, mp.
  unfold raws, eids, ahead. cbn [p_files p_enums]. rewrite !map_app.
  split; [apply nth_ahead; exact A|]. split; [apply nth_ahead; exact B|]. exact S.
Qed.
Lemma on_message_ahead m g p mi : nth_error (p_messages p) m = Some mi ->
  on_message m g (V (ahead p) []) = V (ahead (set_messages (upd m g (p_messages p)) p)) [].
Proof.
  intros H. unfold on_message, on_pool, ahead, set_messages. cbn. rewrite upd_app_l; [reflexivity|]. apply nth_error_Some. congruence.
Qed.
Lemma early_messages ms p : early p -> early (set_messages ms p).
Proof. auto. Qed.

Lemma field_ahead path full f message index fd p p' : early p -> settled (fp_type_name fd) ->
  resolve_field X path full f message index fd (V p []) = Ok (V p' []) ->
  early p' /\ resolve_field X path full f message index fd (V (ahead p) []) = Ok (V (ahead p') []).
Proof.
  intros EA ST H. unfold resolve_field in *. cbn [v_pool] in *.
  apply rbind_ok in H. destruct H as [m [Hm H]].
  change (p_messages (ahead p)) with (p_messages p ++ TM). rewrite (at_ahead _ _ _ _ Hm). cbn [rbind].
  apply rbind_ok in H. destruct H as [v1 [H1 H]]. apply assert_ok in H1. destruct H1 as [-> Hl]. rewrite Hl. cbn [assert rbind].
  apply rbind_ok in H. destruct H as [fi [Hfi H]]. cbn [v_pool] in *.
  change (p_files (ahead p)) with (p_files p ++ TF). rewrite (at_ahead _ _ _ _ Hfi). cbn [rbind].
  apply rbind_ok in H. destruct H as [v1 [H1 H]].
  apply rbind_ok in H. destruct H as [[k v2] [H2 H]]. apply rbind_ok in H. destruct H as [j [Hj H]].
  apply rbind_ok in H. destruct H as [[d v3] [H3 H]]. apply rbind_ok in H. destruct H as [m2 [Hm2 H]].
  apply rbind_ok in H. destruct H as [[oo v4] [H4 H]].
  apply rbind_ok in H. destruct H as [v5 [H5 H]]. apply rbind_ok in H. destruct H as [v6 [H6 H]].
  assert (v_errs v6 = []) as E6 by exact (grows_quiet _ _ (grows_opt_push _ _ _ _ _ H) eq_refl).
  assert (v_errs v5 = []) as E5 by exact (grows_quiet _ _ (grows_opt_push _ _ _ _ _ H6) E6).
  assert (v_errs v4 = []) as E4 by exact (grows_quiet _ _ (grows_opt_push _ _ _ _ _ H5) E5).
  assert (v_errs v3 = []) as E3.
  { destruct (fp_oneof fd) as [z|]; [|inversion H4; subst; exact E4].
    destruct (_ || _); [|inversion H4; subst; exact E4].
    apply rbind_ok in H4. destruct H4 as [v7 [H7 H4]]. inversion H4; subst. exfalso. exact (noisy_push _ _ _ _ H7 E4). }
  assert (v_errs v2 = []) as E2 by exact (grows_quiet _ _ (grows_default _ _ _ _ _ _ _ H3) E3).
  assert (v_errs v1 = []) as E1 by exact (grows_quiet _ _ (grows_type _ _ _ _ _ _ _ _ H2) E2).
  destruct (number_ahead _ _ _ _ _ H1 E1) as (-> & ->). cbn [rbind].
  destruct (type_ahead _ _ _ _ _ _ _ _ EA ST H2 E2) as (-> & ->). cbn [rbind].
  rewrite (json_ahead _ _ _ _ _ Hj). cbn [rbind].
  destruct (default_ahead _ _ _ _ _ _ H3 E3) as (-> & ->). cbn [rbind]. cbn [v_pool] in *.
  change (p_messages (ahead p)) with (p_messages p ++ TM). rewrite (at_ahead _ _ _ _ Hm2). cbn [rbind].
  assert (exists pm, v4 = V pm [] /\ early pm /\ nth_error (p_messages pm) message <> None /\
    (match fp_oneof fd with
    | None => Ok (None, V (ahead p) [])
    | Some z =>
        if (z <? 0)%Z || (length (m_oneofs m2) <=? Z.to_nat z)%nat
        then let! v := push_err [] (nowhere ErrOneofIndex) (V (ahead p) []) in Ok (None, v)
        else Ok (Some (Z.to_nat z), on_message message (m_push_oneof_field (Z.to_nat z) index) (V (ahead p) []))
    end = Ok (oo, V (ahead pm) []))) as (pm & -> & EM & NM & K).
  { apply at_ok in Hm2. destruct (fp_oneof fd) as [z|].
    - destruct ((z <? 0)%Z || (length (m_oneofs m2) <=? Z.to_nat z)%nat).
      + apply rbind_ok in H4. destruct H4 as [v7 [H7 H4]]. inversion H4; subst. exfalso. exact (noisy_push _ _ _ _ H7 E4).
      + injection H4 as <- <-. unfold on_message at 1, on_pool. cbn [v_pool v_errs]. eexists. split; [reflexivity|].
        split; [apply early_messages; exact EA|]. split; [|rewrite (on_message_ahead _ _ _ _ Hm2); reflexivity].
        cbn. rewrite nth_upd, Nat.eqb_refl, Hm2. discriminate.
    - injection H4 as <- <-. exists p. split; [reflexivity|]. split; [exact EA|]. split; [congruence|]. reflexivity. }
  rewrite K. cbn [rbind].
  destruct (nth_error (p_messages pm) message) as [mi|] eqn:Hmi; [|congruence].
  rewrite (on_message_ahead _ _ _ _ Hmi). unfold on_message, on_pool in H5. cbn [v_pool v_errs] in H5.
  destruct (bt_get (as_u32 (fp_number fd)) (m_numbers m2)); [exfalso; exact (noisy_push _ _ _ _ H5 E5)|].
  apply Ok_inj in H5. subst v5. cbn [rbind].
  destruct (assoc_s (fp_name fd) (m_names m2)); [exfalso; exact (noisy_push _ _ _ _ H6 E6)|].
  apply Ok_inj in H6. subst v6. cbn [rbind].
  destruct (assoc_s j (m_jsons m2)); [exfalso; exact (noisy_push _ _ _ _ H eq_refl)|].
  apply Ok_inj in H. injection H as <-. split; [apply early_messages; exact EM|reflexivity].
Qed.

Lemma method_ahead path full f service index m p p' : early p -> settled (mp_input m) -> settled (mp_output m) ->
  resolve_method path full f service index m (V p []) = Ok (V p' []) ->
  early p' /\ resolve_method path full f service index m (V (ahead p) []) = Ok (V (ahead p') []).
Proof.
  intros EA S1 S2 H. unfold resolve_method in *. cbn [v_pool] in *.
  apply rbind_ok in H. destruct H as [s [Hs H]]. change (p_services (ahead p)) with (p_services p). rewrite Hs. cbn [rbind].
  apply rbind_ok in H. destruct H as [v1 [H1 H]]. apply assert_ok in H1. destruct H1 as [-> Hl]. rewrite Hl. cbn [assert rbind].
  apply rbind_ok in H. destruct H as [[i v1] [H1 H]]. apply rbind_ok in H. destruct H as [[o v2] [H2 H]].
  apply Ok_inj in H. unfold on_pool in H. injection H as <- E2.
  assert (v_errs v1 = []) as E1 by exact (grows_quiet _ _ (grows_find_message _ _ _ _ _ _ _ _ H2) E2).
  destruct (find_message_ahead _ _ _ _ _ _ _ _ EA S1 H1 E1) as (-> & ->). cbn [rbind].
  destruct (find_message_ahead _ _ _ _ _ _ _ _ EA S2 H2 E2) as (-> & ->). cbn [rbind v_pool].
  split; [exact EA|reflexivity].
Qed.
Lemma enum_value_ahead path full f enum index x p p' : early p ->
  resolve_enum_value X path full f enum index x (V p []) = Ok (V p' []) ->
  early p' /\ resolve_enum_value X path full f enum index x (V (ahead p) []) = Ok (V (ahead p') []).
Proof.
  intros EA H. apply enum_value_quiet in H. destruct H as (e & pos & found & A & B & C & D & E & ->).
  split; [exact EA|]. unfold resolve_enum_value. rewrite (enum_number_ahead _ _ _ _ B). cbn [rbind v_pool].
  change (p_enums (ahead p)) with (p_enums p ++ TE). rewrite (at_ahead _ _ _ _ (proj2 (at_ok _ _ _) A)). cbn [rbind].
  rewrite C. replace (found && negb (e_alias e)) with false by (destruct found; [rewrite D by reflexivity|]; reflexivity).
  cbn [rbind]. rewrite E. unfold on_pool, set_enums, ahead. cbn. rewrite upd_app_l; [reflexivity|]. apply nth_error_Some. congruence.
Qed.
Lemma ext_ahead path full f parent index fd p p' : early p -> settled (fp_type_name fd) -> settled (the_extendee fd) ->
  resolve_ext X path full f parent index fd (V p []) = Ok (V p' []) ->
  early p' /\ resolve_ext X path full f parent index fd (V (ahead p) []) = Ok (V (ahead p') []).
Proof.
  intros EA S1 S2 H. unfold resolve_ext in *. cbn [v_pool] in *.
  apply rbind_ok in H. destruct H as [v1 [H1 H]]. apply assert_ok in H1. destruct H1 as [-> Hl].
  change (p_exts (ahead p)) with (p_exts p). rewrite Hl. cbn [assert rbind].
  apply rbind_ok in H. destruct H as [[x v1] [H1 H]]. apply rbind_ok in H. destruct H as [v2 [H2 H]].
  apply rbind_ok in H. destruct H as [fi [Hfi H]]. apply rbind_ok in H. destruct H as [[k v3] [H3 H]].
  apply rbind_ok in H. destruct H as [j [Hj H]]. apply rbind_ok in H. destruct H as [[d v4] [H4 H]].
  apply Ok_inj in H. unfold on_pool in H. injection H as <- E4.
  assert (v_errs v3 = []) as E3 by exact (grows_quiet _ _ (grows_default _ _ _ _ _ _ _ H4) E4).
  assert (v_errs v2 = []) as E2 by exact (grows_quiet _ _ (grows_type _ _ _ _ _ _ _ _ H3) E3).
  assert (v_errs v1 = []) as E1.
  { destruct x as [x|]; [|apply Ok_inj in H2; subst; exact E2]. apply rbind_ok in H2. destruct H2 as (mi & _ & H2).
    exact (grows_quiet _ _ (grows_field_number _ _ _ _ _ H2) E2). }
  change (match fp_extendee fd with Some e => e | None => [] end) with (the_extendee fd) in *.
  destruct (find_message_ahead _ _ _ _ _ _ _ _ EA S2 H1 E1) as (-> & ->). cbn [rbind].
  assert (exists pm, v2 = V pm [] /\ early pm /\
    (match x with
     | Some e => let! _ := at_ (p_messages (v_pool (V (ahead p) []))) e in
                 check_field_number e fd (f, path) (on_message e (m_push_ext index) (V (ahead p) []))
     | None => Ok (V (ahead p) [])
     end = Ok (V (ahead pm) []))) as (pm & -> & EM & K).
  { destruct x as [x|]; [|apply Ok_inj in H2; subst; exists p; auto].
    apply rbind_ok in H2. destruct H2 as (mi & Hmi & H2). cbn [v_pool] in *.
    change (p_messages (ahead p)) with (p_messages p ++ TM). rewrite (at_ahead _ _ _ _ Hmi). cbn [rbind].
    apply at_ok in Hmi. rewrite (on_message_ahead _ _ _ _ Hmi).
    unfold on_message, on_pool in H2. cbn [v_pool v_errs] in H2.
    destruct (number_ahead _ _ _ _ _ H2 E2) as (-> & ->). eexists. split; [reflexivity|]. split; [exact EA|reflexivity]. }
  rewrite K. cbn [rbind v_pool] in *. change (p_files (ahead pm)) with (p_files pm ++ TF). rewrite (at_ahead _ _ _ _ Hfi). cbn [rbind].
  destruct (type_ahead _ _ _ _ _ _ _ _ EM S1 H3 E3) as (-> & ->). cbn [rbind].
  rewrite (json_ahead _ _ _ _ _ Hj). cbn [rbind].
  destruct (default_ahead _ _ _ _ _ _ H4 E4) as (-> & ->). cbn [rbind v_pool]. split; [exact EM|reflexivity].
Qed.

(** files *)
Definition go (fuel' : nat) (p : pool) (raw : file) :=
  fix go (i : nat) (ds : list str) (deps : list nat) : res (list nat) :=
         match ds with
         | [] => Ok deps
         | d :: r =>
             match assoc_s d (p_file_names p) with
             | Some di =>
                 if is_public raw i then
                   let (deps', fresh) := set_insert di deps in
                   if negb fresh then
                     let! deps'' := resolve_public fuel' p deps' di in go (S i) r deps''
                   else go (S i) r deps'
                 else go (S i) r deps
             | None => go (S i) r deps
             end
         end.
Lemma insert_low x l : (x < n)%nat -> low n l -> low n (fst (set_insert x l)).
Proof. intros H L. unfold set_insert. destruct (existsb _ _); [exact L|]. cbn. apply Forall_app. split; [exact L|]. repeat constructor. exact H. Qed.
Lemma public_ahead fuel : forall p deps index t, early p -> low n deps ->
  resolve_public fuel p deps index = Ok t -> low n t /\ resolve_public fuel (ahead p) deps index = Ok t.
Proof.
  induction fuel as [|fuel IH]; intros p deps index t EA LO H; [discriminate|]. cbn [resolve_public] in *.
  apply rbind_ok in H. destruct H as (fi & A & H).
  change (p_files (ahead p)) with (p_files p ++ TF). rewrite (at_ahead _ _ _ _ A). cbn [rbind].
  assert (forall d, In d (fl_deps (fi_raw fi)) -> assoc_s d F1 <> None) as CL.
  { intros d I. destruct EA as (_ & _ & ER & _). apply (closed (fi_raw fi)); [|exact I]. rewrite <- ER.
    apply at_ok in A. apply nth_error_In in A. apply (in_map fi_raw) in A. exact A. }
  change (go fuel p (fi_raw fi) 0 (fl_deps (fi_raw fi)) deps = Ok t) in H.
  change (low n t /\ go fuel (ahead p) (fi_raw fi) 0 (fl_deps (fi_raw fi)) deps = Ok t).
  revert CL H. generalize 0%nat. revert deps t LO. generalize (fl_deps (fi_raw fi)) as ds.
  induction ds as [|d ds IHd]; intros deps t LO i CL H; cbn [go] in *; [injection H as <-; split; [exact LO|reflexivity]|].
  change (p_file_names (ahead p)) with F3. destruct EA as (EN & EF & ER & EL). rewrite EF in H.
  destruct (assoc_s d F1) as [di|] eqn:D; [|destruct (CL d (or_introl eq_refl) D)].
  rewrite (files_agree _ _ D). pose proof (files_low _ _ D) as DL.
  assert (forall e, In e ds -> assoc_s e F1 <> None) as CL' by (intros e I; apply CL; right; exact I).
  destruct (is_public (fi_raw fi) i); [|exact (IHd deps t LO (S i) CL' H)].
  pose proof (insert_low di deps DL LO) as IL. destruct (set_insert di deps) as [deps' fresh]. cbn [fst] in IL.
  destruct fresh; cbn [negb] in *; [exact (IHd _ _ IL _ CL' H)|].
  apply rbind_ok in H. destruct H as (t2 & T & H).
  destruct (IH _ _ _ _ (conj EN (conj EF (conj ER EL))) IL T) as (L2 & ->). cbn [rbind].
  exact (IHd _ _ L2 _ CL' H).
Qed.
Lemma early_files i g p : early p -> (forall x, fi_raw (g x) = fi_raw x) -> (forall x, low n (fi_trans x) -> low n (fi_trans (g x))) ->
  early (set_files (p_file_names p) (upd i g (p_files p)) p).
Proof.
  intros (A & B & C & D) G1 G2. split; [exact A|]. split; [exact B|]. split; [rewrite raws_upd by exact G1; exact C|].
  cbn. clear -D G2. revert i. induction D as [|x l H D IH]; intros [|i]; cbn; constructor; auto.
Qed.
Lemma deps_ahead fuel index ds : forall k trans p t v, early p -> low n trans ->
  resolve_deps fuel index k ds trans (V p []) = Ok (t, v) -> v_errs v = [] ->
  exists p', v = V p' [] /\ early p' /\ low n t /\
    resolve_deps fuel index k ds trans (V (ahead p) []) = Ok (t, V (ahead p') []).
Proof.
  induction ds as [|d ds IH]; intros k trans p t v EA LO H Q; cbn [resolve_deps] in *.
  - injection H as <- <-. exists p. auto.
  - cbn [v_pool] in *. change (p_file_names (ahead p)) with F3. pose proof EA as (_ & EF & _). rewrite EF in H.
    destruct (assoc_s d F1) as [di|] eqn:D.
    + rewrite (files_agree _ _ D). pose proof (files_low _ _ D) as DL.
      apply rbind_ok in H. destruct H as (fi & A & H).
      change (p_files (ahead p)) with (p_files p ++ TF). rewrite (at_ahead _ _ _ _ A). cbn [rbind].
      apply rbind_ok in H. destruct H as (t2 & T & H). unfold on_pool in *. cbn [v_pool v_errs] in *.
      assert (set_files (p_file_names (ahead p)) (upd index (fi_push_dep di) (p_files (ahead p))) (ahead p)
              = ahead (set_files (p_file_names p) (upd index (fi_push_dep di) (p_files p)) p)) as ->.
      { unfold ahead, set_files. cbn. rewrite upd_app_l by exact (at_len _ _ _ A). reflexivity. }
      assert (early (set_files (p_file_names p) (upd index (fi_push_dep di) (p_files p)) p)) as EA2.
      { apply early_files; auto. }
      destruct (public_ahead _ _ _ _ _ EA2 (insert_low di trans DL LO) T) as (L2 & ->). cbn [rbind].
      exact (IH _ _ _ _ _ EA2 L2 H Q).
    + apply rbind_ok in H. destruct H as (w & H & K). exfalso.
      apply (noisy_push _ _ _ _ H). exact (grows_quiet _ _ (grows_deps _ _ _ _ _ _ _ _ K) Q).
Qed.
Lemma imports_ahead m zs p v : fold_res (check_import_index m) zs (V p []) = Ok v -> v_errs v = [] ->
  v = V p [] /\ forall q, fold_res (check_import_index m) zs (V q []) = Ok (V q []).
Proof.
  revert v. induction zs as [|z zs IH]; intros v H Q; cbn [fold_res] in *; [injection H as <-; auto|].
  apply rbind_ok in H. destruct H as (w & H & K).
  assert (v_errs w = []) as QW by exact (grows_quiet _ _ (grows_fold (check_import_index m) zs (fun a => grows_import m a) _ _ K) Q).
  unfold check_import_index at 1 in H.
  destruct ((0 <=? z)%Z && (Z.to_nat z <? m)%nat) eqn:B; [|destruct (noisy_push _ _ _ _ H QW)].
  apply Ok_inj in H. subst w. destruct (IH v K Q) as (-> & G). split; [reflexivity|]. intros q. cbn [fold_res].
  replace (check_import_index m z (V q [])) with (Ok (V q [])) by (unfold check_import_index; rewrite B; reflexivity).
  exact (G q).
Qed.
Lemma file_ahead fuel index f p p' : early p -> (index < n)%nat ->
  resolve_file fuel index f (V p []) = Ok (V p' []) ->
  early p' /\ resolve_file fuel index f (V (ahead p) []) = Ok (V (ahead p') []).
Proof.
  intros EA IL H. unfold resolve_file in *. apply rbind_ok in H. destruct H as ([t v1] & H1 & H).
  apply rbind_ok in H. destruct H as (fi & A & H). apply rbind_ok in H. destruct H as (v2 & H2 & H).
  assert (v_errs v2 = []) as Q2 by exact (grows_quiet _ _ (grows_fold _ _ (fun a => grows_import _ a) _ _ H) eq_refl).
  pose proof (grows_quiet _ _ (grows_fold _ _ (fun a => grows_import _ a) _ _ H2) Q2) as Q1. cbn [on_pool v_errs] in Q1.
  assert (low n [index]) as L1 by (repeat constructor; exact IL).
  destruct (deps_ahead _ _ _ _ _ _ _ _ EA L1 H1 Q1) as (p1 & -> & E1 & LT & ->). cbn [rbind v_pool] in *.
  change (p_files (ahead p1)) with (p_files p1 ++ TF). rewrite (at_ahead _ _ _ _ A). cbn [rbind].
  unfold on_pool in *. cbn [v_pool v_errs] in *.
  assert (set_files (p_file_names (ahead p1)) (upd index (fi_set_trans t) (p_files (ahead p1))) (ahead p1)
          = ahead (set_files (p_file_names p1) (upd index (fi_set_trans t) (p_files p1)) p1)) as ->.
  { unfold ahead, set_files. cbn. rewrite upd_app_l by exact (at_len _ _ _ A). reflexivity. }
  destruct (imports_ahead _ _ _ _ H2 Q2) as (-> & ->). cbn [rbind].
  destruct (imports_ahead _ _ _ _ H eq_refl) as (E & ->). injection E as ->. split; [|reflexivity].
  apply early_files; auto.
Qed.
Lemma service_ahead path full f index s p p' : early p ->
  resolve_service path full f index s (V p []) = Ok (V p' []) ->
  early p' /\ resolve_service path full f index s (V (ahead p) []) = Ok (V (ahead p') []).
Proof.
  intros EA H. unfold resolve_service in *. cbn [v_pool] in *. change (p_services (ahead p)) with (p_services p).
  apply rbind_ok in H. destruct H as (v1 & H1 & H). apply assert_ok in H1. destruct H1 as [-> ->]. cbn [assert rbind].
  apply Ok_inj in H. unfold on_pool in *. cbn [v_pool v_errs] in *. injection H as <-. split; [exact EA|reflexivity].
Qed.

Definition early_ev (e : event) : Prop := match e with EvFile _ i _ => (i < n)%nat | _ => True end.
Lemma step_ahead fuel e p p' : early p -> settled_ev e -> early_ev e ->
  resolve_step X fuel e (V p []) = Ok (V p' []) ->
  early p' /\ resolve_step X fuel e (V (ahead p) []) = Ok (V (ahead p') []).
Proof.
  intros EA SE EV H. destruct e; cbn [resolve_step settled_ev early_ev] in *;
    try (injection H as <-; split; [exact EA|reflexivity]).
  - exact (file_ahead _ _ _ _ _ EA EV H).
  - exact (field_ahead _ _ _ _ _ _ _ _ EA SE H).
  - exact (service_ahead _ _ _ _ _ _ _ EA H).
  - destruct SE. apply method_ahead; assumption.
  - exact (enum_value_ahead _ _ _ _ _ _ _ _ EA H).
  - destruct SE. apply ext_ahead; assumption.
Qed.
Lemma resolve_ahead fuel es : Forall settled_ev es -> Forall early_ev es -> forall p p', early p ->
  fold_res (resolve_step X fuel) es (V p []) = Ok (V p' []) ->
  early p' /\ fold_res (resolve_step X fuel) es (V (ahead p) []) = Ok (V (ahead p') []).
Proof.
  induction es as [|e es IH]; intros S1 S2 p p' EA H; cbn [fold_res] in *; [injection H as <-; auto|].
  inversion S1; subst. inversion S2; subst. apply rbind_ok in H. destruct H as ([pm em] & H1 & H).
  assert (em = []) as -> by exact (grows_quiet _ _ (grows_fold _ _ (grows_resolve X fuel) _ _ H) eq_refl).
  match goal with A : settled_ev e, B : early_ev e |- _ => destruct (step_ahead _ _ _ _ EA A B H1) as (EM & ->) end.
  cbn [rbind]. apply IH; assumption.
Qed.
End Ahead.
