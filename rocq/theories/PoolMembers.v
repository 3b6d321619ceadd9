(** What the fields and values of a built pool have to do with the files. *)
From Coq Require Import Permutation Sorted.
From Verif Require Import Base BaseProofs Value Descr Proto Build VisitProofs EventProofs BuildFrame BuildNames BuildQuiet BuildResolve BuildInv DeclSpec DeclProofs PoolFacts.

Lemma message_at_placed f path scope m : message_at f path scope m -> placed f path m.
Proof.
  induction 1 as [j m H|path scope m j n M IH H]; [apply placed_top; exact H|]. eapply placed_nested; eassumption.
Qed.
Lemma message_at_found f path scope m : message_at f path scope m -> find_message_proto f path = Some m.
Proof. intros H. apply message_at_placed in H. apply H. Qed.
Lemma enum_at_found f path scope e : enum_at f path scope e -> find_enum_proto f path = Some e.
Proof.
  intros [j e' H|path' scope' m j e' M H].
  - cbn. unfold pos. rewrite Nat2Z.id. exact H.
  - eapply placed_enum; [eapply message_at_placed; exact M|exact H].
Qed.

Section Members.
  Context (X : externs).

  (** a message and its declaration *)
  Lemma message_decl p i mi : Inv X p -> nth_error (p_messages p) i = Some mi ->
    exists f dm scope names0,
      nth_error (pool_files p) (id_file (m_id mi)) = Some f /\
      message_at f (id_path (m_id mi)) scope dm /\
      id_full (m_id mi) = dotted scope (dp_name dm) /\ id_name (m_id mi) = dp_name dm /\
      m_map_entry mi = dp_map_entry dm /\
      older names0 (p_names p) /\
      fields_ok X names0 p dm (g_fields (id_file (m_id mi)) i (id_path (m_id mi)) (id_full (m_id mi)) (dp_fields dm)) mi /\
      map o_id (m_oneofs mi) = map (fun e => o_id (mk_oneof e))
        (g_oneofs (id_file (m_id mi)) i (id_path (m_id mi)) (id_full (m_id mi)) (dp_oneofs dm)) /\
      (syntax_at (p_files p) (id_file (m_id mi)) = Some Proto3 ->
         NoDup (map (fun x => to_lower_without_underscores (fp_name x)) (dp_fields dm))).
  Proof.
    intros I Hm. assert (nth_error (all_ids DkMessage p) i = Some (m_id mi)) as Hid by (cbn; rewrite nth_error_map, Hm; reflexivity).
    destruct (index_event _ _ _ _ _ I Hid) as [e [He Hk]]. destruct e; try discriminate. cbn in Hk. apply Some_inj in Hk. subst index.
    destruct (iv_msgs _ _ I _ _ _ _ _ _ He) as [mi' [A [B [C [D [E [[n0 [O F]] G]]]]]]]. rewrite Hm in A. apply Some_inj in A. subst mi'.
    destruct (event_ok _ _ He) as [f [Hf [_ Q]]]. cbn in Q. destruct Q as [scope [Dl [Ef W]]]. cbn in Hf.
    destruct (visit_cc off0 (raws p)) as [_ Cm]. destruct (Cm _ He) as [Ck _]. cbn [heads] in Ck.
    pose proof (Ck _ _ _ (or_introl eq_refl)) as K0. pose proof (Ck _ _ _ (or_intror (or_introl eq_refl))) as K1.
    fold (pool_events p) in K0, K1. rewrite K0 in F. rewrite K1 in E. inversion Dl; subst.
    exists f, m, scope, n0. rewrite B. cbn [mk_id id_file id_path id_full]. rewrite id_name_mk. repeat (split; [assumption || reflexivity|]). exact G.
  Qed.

  Lemma enum_decl p i ei : Inv X p -> nth_error (p_enums p) i = Some ei ->
    exists f en scope scope',
      nth_error (pool_files p) (id_file (e_id ei)) = Some f /\
      enum_at f (id_path (e_id ei)) scope en /\
      id_full (e_id ei) = dotted scope (ep_name en) /\ id_name (e_id ei) = ep_name en /\
      let ks := g_values (id_file (e_id ei)) i (id_path (e_id ei)) scope' (ep_values en) in
      e_values ei = map mk_value ks /\ e_alias ei = allow_alias en /\ values_ok p (allow_alias en) i ks ei /\
      ep_values en <> [] /\
      (syntax_at (p_files p) (id_file (e_id ei)) = Some Proto3 -> exists v vs, ep_values en = v :: vs /\ snd v = 0%Z).
  Proof.
    intros I Hm. assert (nth_error (all_ids DkEnum p) i = Some (e_id ei)) as Hid by (cbn; rewrite nth_error_map, Hm; reflexivity).
    destruct (index_event _ _ _ _ _ I Hid) as [e [He Hk]]. destruct e; try discriminate. cbn in Hk. apply Some_inj in Hk. subst index.
    destruct (iv_enums _ _ I _ _ _ _ _ _ He) as [mi' [A [B [C [D [E [F [G H]]]]]]]]. rewrite Hm in A. apply Some_inj in A. subst mi'.
    destruct (event_ok _ _ He) as [f [Hf [_ Q]]]. cbn in Q. destruct Q as [scope [Dl [Ef W]]]. cbn in Hf.
    destruct (visit_cc off0 (raws p)) as [_ Cm]. destruct (Cm _ He) as [_ Ck]. cbn [ehead] in Ck.
    destruct (Ck _ _ eq_refl) as [scope' K]. fold (pool_events p) in K. rewrite K in D, F. inversion Dl; subst.
    exists f, e, scope, scope'. rewrite B. cbn [mk_id id_file id_path id_full]. rewrite id_name_mk. cbv zeta.
    repeat (split; [assumption || reflexivity|]). exact H.
  Qed.

  Lemma as_u32_legal z : legal_number z = true -> Z.of_N (as_u32 z) = z.
  Proof.
    unfold legal_number, in_range, as_u32. cbn. intros H. apply andb_true_iff in H. destruct H as [H _].
    apply andb_true_iff in H. destruct H as [H1 H2]. apply Z.leb_le in H1. apply Z.ltb_lt in H2.
    rewrite Z2N.id; [|apply Z.mod_pos_bound; lia]. apply Z.mod_small. lia.
  Qed.

  (** the fields one by one *)
  Lemma field_decl names0 p dm fi i path full mi :
    fields_ok X names0 p dm (g_fields fi i path full (dp_fields dm)) mi ->
    Forall2 (fun fd x => exists j, fspec X names0 p dm (EvField (path ++ [2%Z; pos j]) (dotted full (fp_name fd)) fi i j fd) x)
            (dp_fields dm) (m_fields mi).
  Proof.
    intros F. pose proof (fo_fields _ _ _ _ _ _ F) as H. unfold g_fields in H.
    revert H. generalize 0%nat. generalize (m_fields mi). generalize (dp_fields dm). clear F.
    induction l as [|fd l IH]; intros l' n H; cbn [mapi] in H; inversion H; subst; constructor; eauto.
  Qed.
End Members.
