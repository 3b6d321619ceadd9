(** What is left in the message when a text is rejected: the meaning of the
    fields before the error. *)
From Coq Require Import String.
From Verif Require Import Base BaseProofs Wire WireProofs LoopProofs Unknown UnknownProofs Value Descr
  Fields Codec DescrOk DescrProofs FieldsProofs LenProofs MergeProofs RoundSpec RoundProofs EncBytes History
  Float TextLex TextFormat TextParse TextLexProofs TextTokens TextSafe TextMeaning TextMeaningProofs TextMeaningMain.
Open Scope list_scope.
Open Scope N_scope.

Section F.
  Context (t : tables).
  Context (Hw : wf t).
  Context (Hany : forall d n f, full_name t d = any_name -> n = 1 \/ n = 2 -> get_field t d n = Some f -> is_repeated f = false).
  Context (Hx : forall d, NoDup (map fd_number (msg_exts t d))).
  Local Lemma Ht2 : tables_ok t.
  Proof. exact (proj1 Hw). Qed.
  (** a message named google.protobuf.Any takes bytes in its field 2 *)
  Definition any_takes_bytes (d : nat) : Prop :=
    full_name t d = any_name -> exists f, get_field t d 2 = Some f /\ forall b, is_valid_for t f (VBytes b) = true.

  Section Nested.
    Context (n : nat) (pv : kind -> list tok -> pr value).
    Context (Hpv : vgood t n pv) (Hsv : psound t pv).

    Lemma insert_no_error f e kf vf put ts : fdl_ok t f -> kind_msg (fd_kind f) = Some e ->
      entry_key t e = Some kf -> entry_value t e = Some vf ->
      is_repeated kf = false -> is_repeated vf = false -> (exists k0, mk_default (fd_kind kf) = Some k0) ->
      forall vs kvs x m', Forall (fun v => ok_elem t v (fd_kind f) = true) vs -> insert_all t put kvs vs ts <> MErr x m'.
    Proof.
      intros Hf K Ek Ev Rk Rv K0. induction vs as [|v vs IH]; intros kvs x m' H; cbn [insert_all]; [discriminate|]. inversion H; subst.
      destruct (unpack_good t Hw f e kf vf v) as (k & y & -> & _ & _); try assumption. apply IH. assumption.
    Qed.

    Lemma field_value_err m f ts e m' : msg_ok t m -> find_desc t (dm_desc m) (fd_number f) = Some f ->
      Forall tok_ok ts -> (length ts <= n)%nat -> field_value_in t pv m f ts = MErr e m' -> m' = m.
    Proof.
      intros Hm Hfd Hts Hn. pose proof (find_desc_ok _ _ _ _ Ht2 Hfd) as Hfo. pose proof (find_desc_shape _ _ _ _ Hw Hfd) as Hsh.
      pose proof (fo_kind _ _ Hfo) as Hk. unfold field_value_in. destruct (fd_is_list f) eqn:El.
      - destruct (repeated_value pv (fd_kind f) ts) as [x r| | |] eqn:E; cbn [mbind]; [|intros Q; injection Q as <- <-; reflexivity|discriminate|discriminate].
        destruct (fs_get t f _); discriminate.
      - destruct (fd_is_map f) eqn:Em.
        + destruct (fs_map _ _ Hsh Em) as (e0 & kf & vf & k0 & Hke & Ek & Ev & Hk0 & Rk & Rv).
          pose proof (repeated_good t Hany Hx n pv Hpv (fd_kind f) ts Hk Hts Hn) as G.
          destruct (repeated_value pv (fd_kind f) ts) as [x r| | |] eqn:E; cbn [mbind]; [|intros Q; injection Q as <- <-; reflexivity|discriminate|discriminate].
          destruct (fs_get t f _); try discriminate. cbn [pgood] in G. intros Q. exfalso. revert Q. eapply insert_no_error; eauto. exact (proj1 G).
        + destruct (pv (fd_kind f) ts) as [x r| | |] eqn:E; cbn [mbind]; [|intros Q; injection Q as <- <-; reflexivity|discriminate|discriminate].
          destruct (fs_has t f (dm_fields m)); [intros Q; injection Q as <- <-; reflexivity|].
          destruct (match fd_oneof f with Some nums => existsb (has_field_by_number t m) nums | None => false end); [intros Q; injection Q as <- <-; reflexivity|discriminate].
    Qed.
    Lemma any_err m dom name ts e m' : any_takes_bytes (dm_desc m) -> any_in t pv m dom name ts = MErr e m' -> m' = m.
    Proof.
      intros A. unfold any_in. destruct (find_msg t name) as [i|]; [|intros Q; injection Q as <- <-; reflexivity].
      destruct (pv (KMessage i) ts) as [x r| | |]; cbn [mbind]; [|intros Q; injection Q as <- <-; reflexivity|discriminate|discriminate].
      destruct x as [| | | | | | | | | |body| |]; try discriminate. destruct (enc_msg t body) as [b| | |]; try discriminate.
      destruct (bytes_eqb (full_name t (dm_desc m)) any_name) eqn:En; [|intros Q; injection Q as <- <-; reflexivity]. apply bytes_eqb_eq in En. destruct (A En) as (f2 & F2 & V2).
      unfold try_set_field_by_number, try_set_field. destruct (get_field t (dm_desc m) 1) as [f1|]; [|intros Q; injection Q as <- <-; reflexivity].
      destruct (is_valid_for t f1 _); [|intros Q; injection Q as <- <-; reflexivity]. change (dm_desc (with_fields m _)) with (dm_desc m). rewrite F2, V2. discriminate.
    Qed.

    Lemma parse_field_err m ts e m' : msg_ok t m -> any_takes_bytes (dm_desc m) -> Forall tok_ok ts -> (length ts <= S n)%nat -> parse_field t pv m ts = MErr e m' ->
      m' = m \/ exists f pre post, ts = pre ++ post /\ fields_text [f] pre /\ means_field t m f m'.
    Proof.
      intros Hm A Hts Hn. unfold parse_field. pose proof (field_name_good _ Hts) as G1.
      destruct (field_name ts) as [nm r| | |] eqn:En; cbn [mbind]; [|intros Q; injection Q as <- <-; auto|discriminate|discriminate]. destruct G1 as [_ Hr].
      pose proof (field_sep_good r) as Hs. destruct (field_sep r) as [[] r1| | |] eqn:Es; cbn [mbind]; [|intros Q; injection Q as <- <-; auto|discriminate|discriminate].
      assert (psfx r1 ts) as Hr1 by (eapply psfx_trans'; eassumption).
      pose proof (psfx_toks _ _ Hr1 Hts) as Ht1. pose proof (psfx_length _ _ Hr1) as Hl.
      apply field_name_sound in En. destruct En as (a & -> & N). apply field_sep_sound in Es. destruct Es as (sep & -> & Sp).
      set (res := match nm with FIdent s => _ | FExt s => _ | FAny domain name => _ end). intros H.
      destruct res as [m1 r2|e1 m1| |] eqn:Er; cbn [field_end] in H; try discriminate H.
      - right. assert (E : m1 = m' /\ exists r3, r2 = TBad :: r3) by (destruct r2 as [|[] r2]; try discriminate H; injection H as <- <-; eauto). destruct E as (-> & r3 & ->).
        assert (Q : exists g pre, r1 = pre ++ TBad :: r3 /\ given_text g pre /\ means_field t m (TField nm g) m').
        { pose proof (mo_sorted _ _ Hm) as S. subst res. destruct nm as [s|s|dom s].
          - destruct (find_field t (dm_desc m) s) as [f|] eqn:Ef; [|discriminate]. apply (names_ident t Hw) in Ef. eapply (field_value_sound t pv Hsv) in Er; [|exact Ef|exact S]. exact (proj2 Er).
          - destruct (get_ext_by_full t (dm_desc m) s) as [f|] eqn:Ef; [|discriminate]. apply names_ext in Ef. eapply (field_value_sound t pv Hsv) in Er; [|exact Ef|exact S]. exact (proj2 Er).
          - apply (any_sound t pv Hsv) in Er; [|exact S]. destruct Er as (_ & v & pre & E & V & M). exists (TOne v), pre. split; [exact E|]. split; [constructor; exact V|exact M]. }
        destruct Q as (g & b & -> & G & M). exists (TField nm g), (a ++ sep ++ b ++ []), (TBad :: r3). split; [rewrite <- !app_assoc; reflexivity|]. split; [|exact M].
        rewrite <- (app_nil_r (a ++ _)). econstructor; [exact N|exact G| |auto|constructor]. destruct Sp as [->|[-> O]]; [auto|]. right. split; [reflexivity|].
        destruct (given_start _ _ G) as (k & l & ->). exact O.
      - injection H as <- <-. left. subst res. destruct nm as [s|s|dom s].
        + destruct (find_field t (dm_desc m) s) as [f|] eqn:Ef; [|injection Er as <- <-; reflexivity]. eapply field_value_err; [exact Hm|eapply find_field_desc; eassumption|exact Ht1|lia|exact Er].
        + destruct (get_ext_by_full t (dm_desc m) s) as [f|] eqn:Ef; [|injection Er as <- <-; reflexivity]. eapply field_value_err; [exact Hm|eapply get_ext_full_desc; eassumption|exact Ht1|lia|exact Er].
        + eapply any_err; eassumption.
    Qed.

    Lemma fields_loop_err : forall j m ts e m', msg_ok t m -> any_takes_bytes (dm_desc m) -> Forall tok_ok ts -> (length ts <= S n)%nat ->
      fields_loop j (parse_field t pv) m ts = MErr e m' ->
      exists fs pre post, ts = pre ++ post /\ fields_text fs pre /\ means_fields t m fs m'.
    Proof.
      assert (E0 : forall m ts, exists fs pre post, ts = pre ++ post /\ fields_text fs pre /\ means_fields t m fs m).
      { intros m ts. exists [], [], ts. split; [reflexivity|]. split; constructor. }
      induction j as [|j IH]; intros m ts e m' Hm A Hts Hn H; [discriminate|]. cbn [fields_loop] in H.
      assert (G : match parse_field t pv m ts with MOk m' ts' => fields_loop j (parse_field t pv) m' ts' | r => r end = MErr e m' ->
        exists fs pre post, ts = pre ++ post /\ fields_text fs pre /\ means_fields t m fs m').
      { clear H. intros H. pose proof (parse_field_good t Hw Hany Hx n pv Hpv m ts Hm Hts Hn) as G.
        destruct (parse_field t pv m ts) as [m1 r1|e1 m1| |] eqn:E; try discriminate H.
        - destruct G as (G1 & G2 & G3). pose proof (psfx_length _ _ G3). apply (parse_field_sound t Hw pv Hsv) in E; [|exact (mo_sorted _ _ Hm)].
          destruct E as (_ & f & pre & -> & _ & T & M). apply IH in H; [|exact G1|rewrite G2; exact A|eapply psfx_toks; eassumption|lia].
          destruct H as (fs & pre2 & post & -> & T2 & M2). exists (f :: fs), (pre ++ pre2), post. split; [now rewrite <- app_assoc|]. split; [apply fields_cons; assumption|econstructor; eassumption].
        - injection H as -> ->. apply parse_field_err in E; try assumption. destruct E as [->|(f & pre & post & -> & T & M)]; [apply E0|].
          exists [f], pre, post. split; [reflexivity|]. split; [exact T|]. econstructor; [exact M|constructor]. }
      destruct ts as [|k ts]; [discriminate|]. destruct k; exact (G H).
    Qed.
  End Nested.

  Theorem merge_tokens_err m ts e m' : msg_ok t m -> any_takes_bytes (dm_desc m) -> Forall tok_ok ts -> merge_tokens t m ts = MErr e m' ->
    exists fs pre post, ts = pre ++ post /\ fields_text fs pre /\ means_fields t m fs m'.
  Proof.
    intros Hm A Hts H. unfold merge_tokens in H. destruct ts as [|k ts]; [discriminate|].
    eapply (fields_loop_err (length ts)) in H; [exact H|apply parse_value_good; assumption|apply (parse_value_sound t Hw)|exact Hm|exact A|exact Hts|cbn; lia].
  Qed.
End F.
