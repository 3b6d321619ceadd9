(** The parser reads exactly the texts with a meaning, and gives that meaning:
    names, fields and messages. *)
From Coq Require Import String.
From Verif Require Import Base BaseProofs Wire WireProofs LoopProofs Unknown UnknownProofs Value Descr
  Fields Codec DescrOk DescrProofs FieldsProofs LenProofs MergeProofs RoundSpec RoundProofs EncBytes History
  Float TextLex TextFormat TextParse TextLexProofs TextTokens TextSafe TextMeaning TextMeaningProofs.
Open Scope list_scope.
Open Scope N_scope.

(** ** Names *)
Lemma more_ident_sound terms : forall n ts acc s r, (length ts <= n)%nat -> more_ident terms acc ts = POk s r ->
  terms r = true /\ exists xs, ts = flat_map (fun y => [TDot; TIdent y]) xs ++ r /\ s = acc ++ flat_map (fun y => 46 :: y) xs.
Proof.
  induction n as [|n IH]; intros ts acc s r Hn H.
  - destruct ts; [|cbn in Hn; lia]. cbn in H. destruct (terms []) eqn:T; [|discriminate]. injection H as <- <-. split; [exact T|]. exists []. cbn. now rewrite app_nil_r.
  - assert (E0 : forall ts, (if terms ts then POk acc ts else unexpected ts) = POk s r ->
      terms r = true /\ exists xs, ts = flat_map (fun y => [TDot; TIdent y]) xs ++ r /\ s = acc ++ flat_map (fun y => 46 :: y) xs).
    { intros l E. destruct (terms l) eqn:T; [|contradiction (unexpected_no _ _ _ E)]. injection E as <- <-. split; [exact T|]. exists []. cbn. now rewrite app_nil_r. }
    destruct ts as [|k ts]; [apply E0; exact H|]. destruct k; try (apply E0; exact H).
    cbn [more_ident] in H. destruct ts as [|[] ts]; try contradiction (unexpected_no _ _ _ H).
    apply IH in H; [|cbn in Hn; lia]. destruct H as (T & xs & -> & ->). split; [exact T|]. exists (s0 :: xs). cbn [flat_map app]. split; [reflexivity|].
    rewrite <- app_assoc. reflexivity.
Qed.
Lemma more_ident_complete terms r : terms r = true -> match r with TDot :: _ => False | _ => True end ->
  forall xs acc, more_ident terms acc (flat_map (fun y => [TDot; TIdent y]) xs ++ r) = POk (acc ++ flat_map (fun y => 46 :: y) xs) r.
Proof.
  intros T D. induction xs as [|x xs IH]; intros acc.
  - cbn [flat_map app]. rewrite app_nil_r. destruct r as [|k r]; cbn [more_ident]; [now rewrite T|]. destruct k; try contradiction D; rewrite T; reflexivity.
  - cbn [flat_map app more_ident]. rewrite IH, <- app_assoc. reflexivity.
Qed.
Lemma full_ident_sound terms ts s r : full_ident terms ts = POk s r ->
  terms r = true /\ exists x xs, ts = dotted_toks x xs ++ r /\ s = dotted x xs.
Proof.
  destruct ts as [|[] ts]; try discriminate. cbn [full_ident]. intros H. apply (more_ident_sound _ (length ts)) in H; [|lia].
  destruct H as (T & xs & -> & ->). split; [exact T|]. exists s0, xs. split; reflexivity.
Qed.
Lemma full_ident_complete terms x xs r : terms r = true -> match r with TDot :: _ => False | _ => True end ->
  full_ident terms (dotted_toks x xs ++ r) = POk (dotted x xs) r.
Proof. intros T D. cbn [dotted_toks app full_ident]. apply more_ident_complete; assumption. Qed.

Lemma field_name_sound ts n r : field_name ts = POk n r -> exists pre, ts = pre ++ r /\ name_text n pre.
Proof.
  destruct ts as [|k ts]; [discriminate|]. destruct k; try discriminate; cbn [field_name].
  - intros H; injection H as <- <-. exists [TIdent s]. split; [reflexivity|constructor].
  - destruct (full_ident at_rbrack_slash ts) as [s r1| | |] eqn:E; cbn [pbind]; try discriminate. apply full_ident_sound in E. destruct E as (T & x & xs & -> & ->).
    destruct r1 as [|k r1]; [discriminate|]. destruct k; try discriminate.
    + intros H; injection H as <- <-. exists (TLBrack :: dotted_toks x xs ++ [TRBrack]). split; [|constructor]. cbn [app]. now rewrite <- app_assoc.
    + destruct (full_ident at_rbrack r1) as [s r2| | |] eqn:E; cbn [pbind]; try discriminate. apply full_ident_sound in E. destruct E as (T2 & y & ys & -> & ->).
      destruct r2 as [|k r2]; [discriminate|]. destruct k; try discriminate. intros H; injection H as <- <-.
      exists (TLBrack :: dotted_toks x xs ++ TSlash :: dotted_toks y ys ++ [TRBrack]). split; [|constructor]. cbn [app]. f_equal.
      rewrite <- app_assoc. cbn [app]. now rewrite <- app_assoc.
Qed.
Lemma field_name_complete n pre r : name_text n pre -> field_name (pre ++ r) = POk n r.
Proof.
  intros [s|x xs|x xs y ys]; [reflexivity| |].
  - cbn [app field_name]. rewrite <- app_assoc, full_ident_complete by (cbn; auto). reflexivity.
  - cbn [app field_name]. rewrite <- app_assoc, full_ident_complete by (cbn; auto). cbn [pbind app]. rewrite <- app_assoc, full_ident_complete by (cbn; auto). reflexivity.
Qed.
Lemma name_text_start n pre r : name_text n pre -> exists k l, pre ++ r = k :: l /\ ((exists s, k = TIdent s) \/ k = TLBrack) /\ pre <> [].
Proof. intros [s|x xs|x xs y ys]; cbn [app]; do 2 eexists; (split; [reflexivity|]); (split; [|discriminate]); eauto. Qed.

Section M.
  Context (t : tables).
  Context (Hw : wf t).
  Local Lemma Ht' : tables_ok t.
  Proof. exact (proj1 Hw). Qed.

  Lemma names_ident d s f : find_field t d s = Some f <-> names t d (FIdent s) f.
  Proof.
    pose proof Ht' as Ht. unfold find_field.
    assert (G : match get_field_by_name t d (lowercase s) with
        | Some f => match fd_kind f with KGroup i => match nth_error (t_messages t) i with
            | Some m => if bytes_eqb s (id_name (m_id m)) then Some f else None | None => None end | _ => None end
        | None => None end = Some f <->
      exists i m, In f (msg_fields t d) /\ fd_kind f = KGroup i /\ nth_error (t_messages t) i = Some m /\ s = id_name (m_id m) /\ fd_name f = lowercase s).
    { split.
      - destruct (get_field_by_name t d (lowercase s)) as [g|] eqn:E; [|discriminate]. destruct (fd_kind g) as [| | | | | | | | | | | | | | | | |i] eqn:K; try discriminate.
        destruct (nth_error (t_messages t) i) as [m|] eqn:Em; [|discriminate]. destruct (bytes_eqb s (id_name (m_id m))) eqn:Es; [|discriminate]. intros Q; injection Q as ->.
        apply get_field_by_name_number in E; [|exact Ht]. destruct E as [E1 E2]. apply bytes_eqb_eq in Es. exists i, m. rewrite msg_fields_get by exact Ht. auto.
      - intros (i & m & F & K & Em & Es & Ef). rewrite msg_fields_get in F by exact Ht. apply get_field_number_name in F; [|exact Ht]. rewrite Ef in F. rewrite F, K, Em, <- Es.
        now rewrite bytes_eqb_refl. }
    split.
    - destruct (get_field_by_name t d s) as [g|] eqn:E.
      + destruct (get_field_by_name_number _ _ _ _ Ht E) as [E1 E2]. destruct (fd_is_group g) eqn:Eg.
        * rewrite G. intros (i & m & F & K & Em & Es & Ef). eapply na_group; eauto. intros h Hh Eh. rewrite msg_fields_get in Hh by exact Ht.
          apply get_field_number_name in Hh; [|exact Ht]. rewrite Eh, E in Hh. injection Hh as <-. exact Eg.
        * intros Q; injection Q as ->. subst s. constructor; [|exact Eg]. now rewrite msg_fields_get.
      + rewrite G. intros (i & m & F & K & Em & Es & Ef). eapply na_group; eauto. intros h Hh Eh. rewrite msg_fields_get in Hh by exact Ht.
        apply get_field_number_name in Hh; [|exact Ht]. rewrite Eh, E in Hh. discriminate.
    - intros N. inversion N as [g F Eg E0|? i m ? F K Em Es Ef Ng|]; subst.
      + rewrite msg_fields_get in F by exact Ht. rewrite (get_field_number_name _ _ _ _ Ht F), Eg. reflexivity.
      + destruct (get_field_by_name t d (id_name (m_id m))) as [g|] eqn:E.
        * destruct (get_field_by_name_number _ _ _ _ Ht E) as [E1 E2]. rewrite (Ng g); [|now apply msg_fields_get|exact E1]. apply G. exists i, m. auto.
        * apply G. exists i, m. auto.
  Qed.

  Lemma names_ext d s f : get_ext_by_full t d s = Some f <-> names t d (FExt s) f.
  Proof.
    unfold get_ext_by_full. split.
    - intros H. assert (Q : exists l l', msg_exts t d = l ++ f :: l' /\ (forall g, In g l -> fd_full g <> s) /\ fd_full f = s).
      { revert H. induction (msg_exts t d) as [|g l IH]; cbn [find]; [discriminate|]. destruct (bytes_eqb (fd_full g) s) eqn:E.
        - intros Q; injection Q as ->. exists [], l. split; [reflexivity|]. split; [intros ? []|now apply bytes_eqb_eq].
        - intros Q. destruct (IH Q) as (l1 & l2 & -> & N & F). exists (g :: l1), l2. split; [reflexivity|]. split; [|exact F].
          intros h [<-|Hh]; [|auto]. intros Q'. apply bytes_eqb_eq in Q'. congruence. }
      destruct Q as (l & l' & E & N & <-). econstructor; [exact E|exact N].
    - intros N. inversion N as [| |? l l' E Nn]; subst. rewrite E. clear E N. induction l as [|g l IH]; cbn [app find].
      + now rewrite bytes_eqb_refl.
      + destruct (bytes_eqb (fd_full g) (fd_full f)) eqn:Eg.
        * apply bytes_eqb_eq in Eg. exfalso. apply (Nn g); [left; reflexivity|exact Eg].
        * apply IH. intros h Hh. apply Nn. right; exact Hh.
  Qed.

  Definition srt (m : dynmsg) : Prop := bt_sorted (dm_fields m).
  Lemma set_to_srt m f v : srt m -> srt (set_to m f v).
  Proof. intros H. exact (proj1 (assigned_set f v _ H)). Qed.
  Lemma put_set_to f v m : srt m -> with_fields m (fs_put f v (fs_get_mut t f (dm_fields m))) = set_to m f v.
  Proof.
    intros Hs. unfold with_fields, set_to. f_equal. destruct (assigned_put t f v _ Hs) as [S1 G1]. destruct (assigned_set f v _ Hs) as [S2 G2].
    apply bt_ext; [exact S1|exact S2|]. intros k. rewrite G1, G2. reflexivity.
  Qed.
  Lemma new_srt d : srt (new_msg d).
  Proof. unfold srt. cbn. constructor. Qed.

  Lemma means_nolist k v x : means_value t k v x -> match x with VList l' => l' | _ => [x] end = [x].
  Proof. intros H. inversion H as [? ? ? _ S|]; subst; [|reflexivity]. inversion S; reflexivity. Qed.
  Lemma value_start v pre : value_text v pre -> exists k l, pre = k :: l /\ k <> TRBrack /\ k <> TLBrack.
  Proof.
    intros H. inversion H as [? L|fs ts F|fs ts F]; subst.
    - destruct L as [s []|ds radix []|s []|s ss]; do 2 eexists; (split; [reflexivity|split; discriminate]).
    - do 2 eexists; (split; [reflexivity|split; discriminate]).
    - do 2 eexists; (split; [reflexivity|split; discriminate]).
  Qed.
  Lemma given_start g pre : given_text g pre -> exists k l, pre = k :: l.
  Proof. intros H. inversion H as [v ? V| |]; subst; eauto. destruct (value_start _ _ V) as (k & l & -> & _). eauto. Qed.

  Lemma fields_cons f fs pre ts : fields_text [f] pre -> fields_text fs ts -> fields_text (f :: fs) (pre ++ ts).
  Proof. intros H F. inversion H as [|n g a sep b sfx ? ts0 N G Sp Sf F0]; subst. inversion F0; subst. rewrite (app_nil_r (a ++ _)). econstructor; eassumption. Qed.
  Lemma fields_split f fs ts : fields_text (f :: fs) ts -> exists a b, ts = a ++ b /\ fields_text [f] a /\ fields_text fs b.
  Proof.
    intros H. inversion H as [|n g a sep b sfx ? ts0 N G Sp Sf F0]; subst. exists (a ++ sep ++ b ++ sfx), ts0. split; [reflexivity|]. split; [|exact F0].
    rewrite <- (app_nil_r (a ++ _)). econstructor; try eassumption. constructor.
  Qed.

  Lemma entered_iff put ts : forall vs kvs m r, insert_all t put kvs vs ts = MOk m r <-> r = ts /\ exists kvs', entered t kvs vs kvs' /\ m = put kvs'.
  Proof.
    induction vs as [|v vs IH]; intros kvs m r; cbn [insert_all].
    - split.
      + intros H; injection H as <- <-. split; [reflexivity|]. exists kvs. split; [constructor|reflexivity].
      + intros (-> & kvs' & E & ->). inversion E; subst. reflexivity.
    - split.
      + destruct (unpack t v) as [k x| |] eqn:U; try discriminate. rewrite IH. intros (-> & kvs' & E & ->). split; [reflexivity|]. exists kvs'. split; [|reflexivity].
        destruct v as [| | | | | | | | | |m0| |]; try discriminate. unfold unpack, get_field_by_number, MAP_KEY_NUMBER, MAP_VALUE_NUMBER in U.
        destruct (get_field t (dm_desc m0) 1) as [kf|] eqn:K; cbn [option_map] in U; [|discriminate].
        destruct (value_mk _) as [key|] eqn:Ek; [|discriminate]. destruct (get_field t (dm_desc m0) 2) as [vf|] eqn:V; cbn [option_map] in U; [|discriminate].
        injection U as <- <-. econstructor; eassumption.
      + intros (-> & kvs' & E & ->). inversion E as [|? m0 kf vf key ? ? K V Ek R]; subst. unfold unpack, get_field_by_number, MAP_KEY_NUMBER, MAP_VALUE_NUMBER.
        rewrite K. cbn [option_map]. rewrite Ek, V. cbn [option_map]. apply IH. eauto.
  Qed.

  (** *** What is read has that meaning *)
  Section Sound.
    Context (pv : kind -> list tok -> pr value).
    Definition psound := forall k ts x r, pv k ts = POk x r -> exists v pre, ts = pre ++ r /\ value_text v pre /\ means_value t k v x.
    Context (Hpv : psound).

    Lemma list_rest_sound k : forall n acc ts x r, list_rest n pv k acc ts = POk x r ->
      exists vs xs pre, ts = pre ++ TRBrack :: r /\ more_text vs pre /\ means_values t k vs xs /\ x = VList (acc ++ xs).
    Proof.
      induction n as [|n IH]; intros acc ts x r H; [discriminate|]. cbn [list_rest] in H. destruct ts as [|k0 ts]; [discriminate|]. destruct k0; try discriminate.
      - injection H as <- <-. exists [], [], []. rewrite app_nil_r. repeat constructor.
      - destruct (pv k ts) as [y r0| | |] eqn:E; cbn [pbind] in H; try discriminate. apply Hpv in E. destruct E as (v & pre & -> & V & M).
        apply IH in H. destruct H as (vs & xs & pre2 & -> & V2 & M2 & ->). exists (v :: vs), (y :: xs), (TComma :: pre ++ pre2).
        split; [cbn [app]; now rewrite <- app_assoc|]. split; [constructor; assumption|]. split; [constructor; assumption|]. now rewrite <- app_assoc.
    Qed.
    Lemma repeated_sound k ts x r : repeated_value pv k ts = POk x r ->
      exists g pre, ts = pre ++ r /\ given_text g pre /\ means_given t k g (match x with VList l => l | _ => [x] end).
    Proof.
      assert (O : forall ts, pv k ts = POk x r -> exists g pre, ts = pre ++ r /\ given_text g pre /\ means_given t k g (match x with VList l => l | _ => [x] end)).
      { intros ts0 E. apply Hpv in E. destruct E as (v & pre & -> & V & M). exists (TOne v), pre. split; [reflexivity|]. split; [constructor; exact V|].
        rewrite (means_nolist _ _ _ M). constructor; exact M. }
      destruct ts as [|k0 ts]; [apply O|]. destruct k0; try apply O. cbn [repeated_value]. intros H.
      assert (L : pbind (pv k ts) (fun v r' => list_rest (S (length r')) pv k [v] r') = POk x r ->
         exists g pre, TLBrack :: ts = pre ++ r /\ given_text g pre /\ means_given t k g (match x with VList l => l | _ => [x] end)).
      { intros H'. destruct (pv k ts) as [y r0| | |] eqn:E; cbn [pbind] in H'; try discriminate. apply Hpv in E. destruct E as (v & pre & -> & V & M).
        apply list_rest_sound in H'. destruct H' as (vs & xs & pre2 & -> & V2 & M2 & ->). exists (TMany (v :: vs)), (TLBrack :: pre ++ pre2 ++ [TRBrack]).
        split; [cbn [app]; now rewrite <- !app_assoc|]. split; [constructor; assumption|]. constructor. cbn [app]. constructor; assumption. }
      destruct ts as [|k1 ts]; [exact (L H)|]. destruct k1; try exact (L H). injection H as <- <-. exists (TMany []), [TLBrack; TRBrack]. repeat constructor.
    Qed.

    Lemma field_value_sound n f m ts m' r : names t (dm_desc m) n f -> srt m -> field_value_in t pv m f ts = MOk m' r ->
      srt m' /\ exists g pre, ts = pre ++ r /\ given_text g pre /\ means_field t m (TField n g) m'.
    Proof.
      intros N S. unfold field_value_in. destruct (fd_is_list f) eqn:L.
      - destruct (repeated_value pv (fd_kind f) ts) as [x r0| | |] eqn:E; cbn [mbind]; try discriminate. rewrite get_mut_get_self.
        destruct (fs_get t f (dm_fields m)) as [| | | | | | | | | | |l|] eqn:G; try discriminate. intros H.
        injection H as <- <-. rewrite put_set_to by exact S. split; [apply set_to_srt, S|]. apply repeated_sound in E. destruct E as (g & pre & -> & T & M).
        exists g, pre. split; [reflexivity|]. split; [exact T|]. eapply mf_list; eassumption.
      - destruct (fd_is_map f) eqn:Mp.
        + destruct (repeated_value pv (fd_kind f) ts) as [x r0| | |] eqn:E; cbn [mbind]; try discriminate. rewrite get_mut_get_self.
          destruct (fs_get t f (dm_fields m)) as [| | | | | | | | | | | |l] eqn:G; try discriminate. rewrite entered_iff. intros (-> & kvs' & En & ->).
          rewrite put_set_to by exact S. split; [apply set_to_srt, S|]. apply repeated_sound in E. destruct E as (g & pre & -> & T & M).
          exists g, pre. split; [reflexivity|]. split; [exact T|]. eapply mf_map; eassumption.
        + destruct (pv (fd_kind f) ts) as [x r0| | |] eqn:E; cbn [mbind]; try discriminate. destruct (fs_has t f (dm_fields m)) eqn:Hh; [discriminate|].
          destruct (match fd_oneof f with Some nums => existsb (has_field_by_number t m) nums | None => false end) eqn:Ho; [discriminate|].
          intros H; injection H as <- <-. split; [apply (set_to_srt m), S|]. apply Hpv in E. destruct E as (v & pre & -> & V & M). exists (TOne v), pre.
          split; [reflexivity|]. split; [constructor; exact V|]. eapply (mf_one t m); try eassumption. intros nums k Eo Hk. rewrite Eo in Ho.
          destruct (has_field_by_number t m k) eqn:Q; [|reflexivity]. rewrite <- Ho. symmetry. apply existsb_exists. eauto.
    Qed.

    Lemma any_sound dom name m ts m' r : srt m -> any_in t pv m dom name ts = MOk m' r ->
      srt m' /\ exists v pre, ts = pre ++ r /\ value_text v pre /\ means_field t m (TField (FAny dom name) (TOne v)) m'.
    Proof.
      intros S. unfold any_in. destruct (find_msg t name) as [i|] eqn:Ei; [|discriminate]. destruct (pv (KMessage i) ts) as [x r0| | |] eqn:E; cbn [mbind]; try discriminate.
      destruct x as [| | | | | | | | | |body| |]; try discriminate. destruct (enc_msg t body) as [b| | |] eqn:Eb; try discriminate.
      destruct (bytes_eqb (full_name t (dm_desc m)) any_name) eqn:En; [|discriminate]. apply bytes_eqb_eq in En. unfold try_set_field_by_number, try_set_field.
      destruct (get_field t (dm_desc m) 1) as [f1|] eqn:F1; [|discriminate]. destruct (is_valid_for t f1 _) eqn:V1; [|discriminate].
      change (dm_desc (with_fields m _)) with (dm_desc m). destruct (get_field t (dm_desc m) 2) as [f2|] eqn:F2; [|discriminate]. destruct (is_valid_for t f2 _) eqn:V2; [|discriminate].
      intros H; injection H as <- <-. split; [apply (set_to_srt (set_to m f1 _)), (set_to_srt m), S|]. apply Hpv in E. destruct E as (v & pre & -> & V & M). exists v, pre.
      split; [reflexivity|]. split; [exact V|]. eapply (mf_any t m); eassumption.
    Qed.

    Lemma field_end_sound r0 m r : field_end r0 = MOk m r -> exists sfx, r0 = MOk m (sfx ++ r) /\ (sfx = [] \/ sfx = [TComma] \/ sfx = [TSemi]).
    Proof.
      destruct r0 as [m0 ts| | |]; try discriminate. cbn [field_end]. destruct ts as [|k ts].
      - intros H; injection H as <- <-. exists []. auto.
      - destruct k; try discriminate; intros H; injection H as <- <-; first [exists [TComma]; split; [reflexivity|auto]; fail|exists [TSemi]; split; [reflexivity|auto]; fail|exists []; auto].
    Qed.
    Lemma field_sep_sound ts r : field_sep ts = POk tt r -> exists sep, ts = sep ++ r /\ (sep = [TColon] \/ sep = [] /\ opens r).
    Proof.
      destruct ts as [|k ts]; [discriminate|]. destruct k; try discriminate; intros H; injection H as <-; first [exists [TColon]; split; [reflexivity|auto]; fail|exists []; cbn; auto].
    Qed.

    Lemma parse_field_sound m ts m' r : srt m -> parse_field t pv m ts = MOk m' r ->
      srt m' /\ exists f pre, ts = pre ++ r /\ pre <> [] /\ fields_text [f] pre /\ means_field t m f m'.
    Proof.
      intros S. unfold parse_field. destruct (field_name ts) as [n r1| | |] eqn:En; cbn [mbind]; try discriminate. apply field_name_sound in En. destruct En as (a & -> & N).
      destruct (field_sep r1) as [[] r2| | |] eqn:Es; cbn [mbind]; try discriminate. apply field_sep_sound in Es. destruct Es as (sep & -> & Sp).
      intros H. apply field_end_sound in H. destruct H as (sfx & H & Sf).
      assert (Q : srt m' /\ exists g pre, r2 = pre ++ sfx ++ r /\ given_text g pre /\ means_field t m (TField n g) m').
      { destruct n as [s|s|dom s].
        - destruct (find_field t (dm_desc m) s) as [f|] eqn:Ef; [|discriminate]. apply names_ident in Ef. eapply field_value_sound; eassumption.
        - destruct (get_ext_by_full t (dm_desc m) s) as [f|] eqn:Ef; [|discriminate]. apply names_ext in Ef. eapply field_value_sound; eassumption.
        - apply any_sound in H; [|exact S]. destruct H as (S' & v & pre & E & V & M). split; [exact S'|]. exists (TOne v), pre. split; [exact E|]. split; [constructor; exact V|exact M]. }
      destruct Q as (S' & g & b & -> & G & M). split; [exact S'|]. exists (TField n g), (a ++ sep ++ b ++ sfx). split; [now rewrite <- !app_assoc|].
      split; [destruct (name_text_start _ _ [] N) as (k & l & _ & _ & Na); destruct a; [congruence|discriminate]|]. split; [|exact M].
      rewrite <- (app_nil_r (a ++ _)). econstructor; [exact N|exact G| |exact Sf|constructor]. destruct Sp as [->|[-> O]]; [auto|]. right. split; [reflexivity|].
      destruct (given_start _ _ G) as (k & l & ->). exact O.
    Qed.

    Lemma message_loop_sound angle : forall n m ts m' r, srt m -> message_loop n (parse_field t pv) angle m ts = MOk m' r ->
      exists fs pre, ts = pre ++ (if angle : bool then TRAngle else TRBrace) :: r /\ fields_text fs pre /\ means_fields t m fs m'.
    Proof.
      induction n as [|n IH]; intros m ts m' r S H; [discriminate|]. cbn [message_loop] in H. destruct ts as [|k ts]; [discriminate|].
      assert (G : match parse_field t pv m (k :: ts) with MOk m' ts' => message_loop n (parse_field t pv) angle m' ts' | r => r end = MOk m' r ->
         exists fs pre, k :: ts = pre ++ (if angle then TRAngle else TRBrace) :: r /\ fields_text fs pre /\ means_fields t m fs m').
      { destruct (parse_field t pv m (k :: ts)) as [m1 r1| | |] eqn:E; try discriminate. apply parse_field_sound in E; [|exact S].
        destruct E as (S1 & f & pre & E & _ & F & M). rewrite E. intros H'. apply IH in H'; [|exact S1]. destruct H' as (fs & pre2 & -> & F2 & M2).
        exists (f :: fs), (pre ++ pre2). split; [now rewrite <- app_assoc|]. split; [apply fields_cons; assumption|]. econstructor; eassumption. }
      assert (C : forall b : bool, (if b then MOk m ts else unexpected_in m (k :: ts)) = MOk m' r -> b = true /\ m' = m /\ r = ts).
      { intros []; [intros Q; injection Q as <- <-; auto|]. cbn [unexpected_in]. destruct k; discriminate. }
      destruct k; try (exact (G H)); apply C in H; destruct H as (B & -> & ->); cbn [tok_is_close] in B; try discriminate B; destruct angle; try discriminate B;
        exists [], []; split; try reflexivity; split; constructor.
    Qed.
    Lemma fields_loop_sound : forall n m ts m' r, srt m -> fields_loop n (parse_field t pv) m ts = MOk m' r ->
      r = [] /\ exists fs, fields_text fs ts /\ means_fields t m fs m'.
    Proof.
      induction n as [|n IH]; intros m ts m' r S H; [discriminate|]. cbn [fields_loop] in H. destruct ts as [|k ts].
      - injection H as <- <-. split; [reflexivity|]. exists []. split; constructor.
      - assert (G : match parse_field t pv m (k :: ts) with MOk m' ts' => fields_loop n (parse_field t pv) m' ts' | r => r end = MOk m' r ->
         r = [] /\ exists fs, fields_text fs (k :: ts) /\ means_fields t m fs m').
        { destruct (parse_field t pv m (k :: ts)) as [m1 r1| | |] eqn:E; try discriminate. apply parse_field_sound in E; [|exact S].
          destruct E as (S1 & f & pre & E & _ & F & M). rewrite E. intros H'. apply IH in H'; [|exact S1]. destruct H' as (-> & fs & F2 & M2).
          split; [reflexivity|]. exists (f :: fs). split; [apply fields_cons; assumption|]. econstructor; eassumption. }
        destruct k; try discriminate H; exact (G H).
    Qed.
  End Sound.

  Lemma parse_value_sound : forall n, psound (parse_value t n).
  Proof.
    induction n as [|n IH]; intros k ts x r H; cbn [parse_value] in H.
    - destruct (kind_msg k) eqn:K; [discriminate|]. apply parse_scalar_sound in H; [|exact K]. destruct H as (pre & -> & S). exists (TLit pre), pre.
      split; [reflexivity|]. split; [constructor; eapply says_text; exact S|constructor; assumption].
    - destruct (kind_msg k) as [d|] eqn:K.
      + destruct (message_value _ _ _) as [m r0| | |] eqn:E; try discriminate. injection H as <- <-. unfold message_value in E. destruct ts as [|k0 ts]; [discriminate|].
        destruct k0; try discriminate; apply (message_loop_sound _ IH) in E; try apply new_srt; destruct E as (fs & pre & -> & F & M).
        * exists (TMsg fs), (TLBrace :: pre ++ [TRBrace]). split; [cbn [app]; now rewrite <- app_assoc|]. split; [constructor; exact F|econstructor; eassumption].
        * exists (TMsg fs), (TLAngle :: pre ++ [TRAngle]). split; [cbn [app]; now rewrite <- app_assoc|]. split; [constructor; exact F|econstructor; eassumption].
      + apply parse_scalar_sound in H; [|exact K]. destruct H as (pre & -> & S). exists (TLit pre), pre.
        split; [reflexivity|]. split; [constructor; eapply says_text; exact S|constructor; assumption].
  Qed.

  (** *** What has a meaning is read *)
  Definition stop (r : list tok) : Prop :=
    match r with [] | TIdent _ :: _ | TLBrack :: _ | TRBrace :: _ | TRAngle :: _ => True | _ => False end.
  Lemma stop_follow r : stop r -> follow r.
  Proof. destruct r as [|[] r]; cbn; auto. Qed.
  Lemma fields_stop fs ts r : fields_text fs ts -> stop r -> stop (ts ++ r).
  Proof.
    intros F S. inversion F as [|n g a sep b sfx ? ts0 N _ _ _ _]; subst; [exact S|]. rewrite <- !app_assoc.
    destruct (name_text_start _ _ (sep ++ b ++ sfx ++ ts0 ++ r) N) as (k & l & -> & [[s ->]| ->] & _); exact Logic.I.
  Qed.

  Section Complete.
    Context (pv : kind -> list tok -> pr value) (n : nat).
    Definition pcomplete := forall k v x pre r, value_text v pre -> means_value t k v x -> (length pre <= n)%nat -> follow r -> pv k (pre ++ r) = POk x r.
    Context (Hpv : pcomplete).

    Lemma list_rest_complete k r : forall vs pre xs acc j, more_text vs pre -> means_values t k vs xs -> (length pre <= n)%nat -> (length pre < j)%nat ->
      list_rest j pv k acc (pre ++ TRBrack :: r) = POk (VList (acc ++ xs)) r.
    Proof.
      induction vs as [|v vs IH]; intros pre xs acc j V M Hn Hj; inversion V as [|? ? a b Va Vb]; subst; inversion M as [|? ? ? x xs' Mx Mxs]; subst;
        (destruct j as [|j]; [lia|]); cbn [app list_rest].
      - now rewrite app_nil_r.
      - cbn [length] in Hn, Hj. rewrite app_length in Hn, Hj. rewrite <- app_assoc. rewrite (Hpv _ _ x _ _ Va Mx); [|lia|].
        + cbn [pbind]. rewrite (IH _ xs' _ _ Vb Mxs); [|lia|lia]. now rewrite <- app_assoc.
        + inversion Vb; exact Logic.I.
    Qed.
    Lemma repeated_complete k g pre xs r : given_text g pre -> means_given t k g xs -> (length pre <= n)%nat -> follow r ->
      exists x, repeated_value pv k (pre ++ r) = POk x r /\ match x with VList l => l | _ => [x] end = xs.
    Proof.
      intros G M Hn F. inversion G as [v ? V| |v vs a b Va Vb]; subst.
      - inversion M as [? ? x Mx|]; subst. exists x. split; [|apply (means_nolist _ _ _ Mx)]. pose proof (Hpv _ _ _ _ r V Mx Hn F) as E.
        destruct (value_start _ _ V) as (k0 & l & -> & _ & N). cbn [app] in *. destruct k0; try congruence; exact E.
      - inversion M as [|? ? ? Mx]; subst. inversion Mx; subst. exists (VList []). auto.
      - inversion M as [|? ? ? Mx]; subst. inversion Mx as [|? ? ? x xs' M1 M2]; subst. exists (VList (x :: xs')). split; [|reflexivity].
        cbn [length] in Hn. rewrite !app_length in Hn. cbn [app repeated_value].
        destruct (value_start _ _ Va) as (k0 & l & Ea & N & _). assert (E : pbind (pv k ((a ++ b ++ [TRBrack]) ++ r)) (fun v r' => list_rest (S (length r')) pv k [v] r') = POk (VList (x :: xs')) r).
        { rewrite <- !app_assoc. rewrite (Hpv _ _ x _ _ Va M1); [|lia|inversion Vb; exact Logic.I]. cbn [pbind].
          rewrite (list_rest_complete k r vs b xs' [x] _ Vb M2); [reflexivity|lia|rewrite app_length; lia]. }
        subst a. cbn [app] in *. destruct k0; try congruence; exact E.
    Qed.

    Lemma field_value_complete nm f m g pre m' r : (forall a b, nm <> FAny a b) -> (forall h, names t (dm_desc m) nm h -> h = f) -> srt m -> given_text g pre -> means_field t m (TField nm g) m' ->
      (length pre <= n)%nat -> follow r -> field_value_in t pv m f (pre ++ r) = MOk m' r.
    Proof.
      intros NA NF S G M Hn F. unfold field_value_in. inversion M as [? ? h v x N L Mp Hh Ho Mv|? ? h ? xs l N L Mg Gv|? ? h ? xs kvs kvs' N L Mp Mg Gv En|]; subst.
      - apply NF in N. subst h. rewrite L, Mp. inversion G as [? ? V| |]; subst. rewrite (Hpv _ _ x _ _ V Mv Hn F). cbn [mbind]. unfold has_field in Hh. rewrite Hh.
        destruct (fd_oneof f) as [nums|] eqn:Eo; [|reflexivity]. destruct (existsb (has_field_by_number t m) nums) eqn:Q; [|reflexivity].
        apply existsb_exists in Q. destruct Q as (k & Hk & Q). rewrite (Ho _ _ eq_refl Hk) in Q. discriminate.
      - apply NF in N. subst h. rewrite L. destruct (repeated_complete _ _ _ _ r G Mg Hn F) as (x & E & <-). rewrite E. cbn [mbind]. rewrite get_mut_get_self.
        unfold get_field_value in Gv. rewrite Gv. now rewrite put_set_to.
      - apply NF in N. subst h. rewrite L, Mp. destruct (repeated_complete _ _ _ _ r G Mg Hn F) as (x & E & <-). rewrite E. cbn [mbind]. rewrite get_mut_get_self.
        unfold get_field_value in Gv. rewrite Gv. apply entered_iff. split; [reflexivity|]. exists kvs'. split; [exact En|]. now rewrite put_set_to.
      - exfalso. eapply NA. reflexivity.
    Qed.

    Lemma any_complete dom name m g pre m' r : given_text g pre -> means_field t m (TField (FAny dom name) g) m' ->
      (length pre <= n)%nat -> follow r -> any_in t pv m dom name (pre ++ r) = MOk m' r.
    Proof.
      intros G M Hn F. inversion M as [? ? h ? ? N|? ? h ? ? ? N|? ? h ? ? ? ? N|? ? ? v i body b f1 f2 En Ei Mv Eb F1 F2 V1 V2]; subst; try (now inversion N).
      unfold any_in. rewrite Ei. inversion G as [? ? V| |]; subst. rewrite (Hpv _ _ _ _ _ V Mv Hn F). cbn [mbind]. rewrite Eb, En, bytes_eqb_refl.
      unfold try_set_field_by_number, try_set_field. rewrite F1, V1. change (dm_desc (with_fields m _)) with (dm_desc m). rewrite F2, V2. reflexivity.
    Qed.

    Lemma parse_field_complete f pre m m' r : srt m -> fields_text [f] pre -> means_field t m f m' -> (length pre <= n)%nat -> stop r ->
      parse_field t pv m (pre ++ r) = MOk m' r.
    Proof.
      intros S T M Hn St. inversion T as [|nm g a sep b sfx ? ts0 N G Sp Sf F0]; subst. inversion F0; subst. rewrite app_nil_r in *. clear F0 T.
      unfold parse_field. rewrite <- !app_assoc, (field_name_complete nm a _ N). cbn [mbind].
      assert (E : field_sep (sep ++ b ++ sfx ++ r) = POk tt (b ++ sfx ++ r)).
      { destruct Sp as [->|[-> O]]; [reflexivity|]. cbn [app]. destruct b as [|[] b]; try contradiction O; reflexivity. }
      rewrite E. cbn [mbind]. rewrite !app_length in Hn.
      assert (Fo : follow (sfx ++ r)) by (destruct Sf as [->|[->| ->]]; [apply stop_follow, St|exact Logic.I|exact Logic.I]).
      assert (FE : field_end (MOk m' (sfx ++ r)) = MOk m' r).
      { destruct Sf as [->|[->| ->]]; try reflexivity. cbn [app field_end]. destruct r as [|[] r]; try contradiction St; reflexivity. }
      rewrite <- FE. f_equal. destruct nm as [s|s|dom s].
      - destruct (find_field t (dm_desc m) s) as [f|] eqn:Ef.
        + eapply (field_value_complete (FIdent s) f); try eassumption; try lia; [discriminate|]. intros h Hh. apply names_ident in Hh. congruence.
        + exfalso. inversion M as [? ? h ? ? N1|? ? h ? ? ? N1|? ? h ? ? ? ? N1|]; subst; apply names_ident in N1; congruence.
      - destruct (get_ext_by_full t (dm_desc m) s) as [f|] eqn:Ef.
        + eapply (field_value_complete (FExt s) f); try eassumption; try lia; [discriminate|]. intros h Hh. apply names_ext in Hh. congruence.
        + exfalso. inversion M as [? ? h ? ? N1|? ? h ? ? ? N1|? ? h ? ? ? ? N1|]; subst; apply names_ext in N1; congruence.
      - eapply any_complete; [exact G|exact M|lia|exact Fo].
    Qed.

    Lemma means_srt m f m' : srt m -> means_field t m f m' -> srt m'.
    Proof. intros S M. inversion M; subst; repeat apply set_to_srt; exact S. Qed.
    Lemma field_nonempty f pre : fields_text [f] pre -> exists k l, pre = k :: l /\ ((exists s, k = TIdent s) \/ k = TLBrack).
    Proof.
      intros T. inversion T as [|nm g a sep b sfx ? ts0 N G Sp Sf F0]; subst. rewrite <- !app_assoc. destruct (name_text_start _ _ (sep ++ b ++ sfx ++ ts0) N) as (k & l & E & K & _). eauto.
    Qed.

    Lemma message_loop_complete angle r : forall fs ts m m' j, fields_text fs ts -> means_fields t m fs m' -> srt m -> (length ts <= n)%nat -> (length ts < j)%nat ->
      message_loop j (parse_field t pv) angle m (ts ++ (if angle : bool then TRAngle else TRBrace) :: r) = MOk m' r.
    Proof.
      induction fs as [|f fs IH]; intros ts m m' j T M S Hn Hj; (destruct j as [|j]; [lia|]); inversion M as [|? ? m1 ? ? M1 M2]; subst.
      - inversion T; subst. cbn [app]. destruct angle; reflexivity.
      - apply fields_split in T. destruct T as (a & b & -> & Ta & Tb). rewrite app_length in Hn, Hj.
        assert (E : parse_field t pv m (a ++ b ++ (if angle then TRAngle else TRBrace) :: r) = MOk m1 (b ++ (if angle then TRAngle else TRBrace) :: r)).
        { eapply (parse_field_complete f); try eassumption; [lia|]. apply (fields_stop fs); [exact Tb|]. destruct angle; exact Logic.I. }
        assert (I2 : message_loop j (parse_field t pv) angle m1 (b ++ (if angle then TRAngle else TRBrace) :: r) = MOk m' r).
        { destruct (field_nonempty _ _ Ta) as (k & l & -> & _). cbn [length] in *. apply IH; try assumption; [eapply means_srt; eassumption|lia|lia]. }
        rewrite <- app_assoc. destruct (field_nonempty _ _ Ta) as (k & l & -> & K). cbn [app] in *. cbn [message_loop].
        destruct K as [[s ->]| ->]; rewrite E; exact I2.
    Qed.
    Lemma fields_loop_complete : forall fs ts m m' j, fields_text fs ts -> means_fields t m fs m' -> srt m -> (length ts <= n)%nat -> (length ts < j)%nat ->
      fields_loop j (parse_field t pv) m ts = MOk m' [].
    Proof.
      induction fs as [|f fs IH]; intros ts m m' j T M S Hn Hj; (destruct j as [|j]; [lia|]); inversion M as [|? ? m1 ? ? M1 M2]; subst.
      - inversion T; subst. reflexivity.
      - apply fields_split in T. destruct T as (a & b & -> & Ta & Tb). rewrite app_length in Hn, Hj.
        assert (E : parse_field t pv m (a ++ b) = MOk m1 b).
        { eapply (parse_field_complete f); try eassumption; [lia|]. rewrite <- (app_nil_r b). apply (fields_stop fs); [exact Tb|exact Logic.I]. }
        assert (I2 : fields_loop j (parse_field t pv) m1 b = MOk m' []).
        { destruct (field_nonempty _ _ Ta) as (k & l & -> & _). cbn [length] in *. apply IH; try assumption; [eapply means_srt; eassumption|lia|lia]. }
        destruct (field_nonempty _ _ Ta) as (k & l & -> & K). cbn [app] in *. cbn [fields_loop]. destruct K as [[s ->]| ->]; rewrite E; exact I2.
    Qed.
  End Complete.

  Lemma parse_value_complete : forall n, pcomplete (parse_value t n) n.
  Proof.
    induction n as [|n IH]; intros k v x pre r V M Hn F.
    - destruct (value_start _ _ V) as (k0 & l & -> & _). cbn in Hn; lia.
    - cbn [parse_value]. inversion M as [? ts ? K S|? d fs m K Mf]; subst; rewrite K.
      + inversion V; subst. apply parse_scalar_complete; assumption.
      + assert (E : message_value (parse_field t (parse_value t n)) (new_msg d) (pre ++ r) = MOk m r); [|rewrite E; reflexivity].
        inversion V as [|? ts T|? ts T]; subst; cbn [app message_value]; cbn [length] in Hn; rewrite app_length in Hn; cbn [length] in Hn; rewrite <- app_assoc.
        * apply (message_loop_complete _ n IH false r fs ts); try assumption; [apply new_srt|lia|rewrite app_length; lia].
        * apply (message_loop_complete _ n IH true r fs ts); try assumption; [apply new_srt|lia|rewrite app_length; lia].
  Qed.

  Theorem merge_tokens_iff m ts m' r : srt m ->
    merge_tokens t m ts = MOk m' r <-> r = [] /\ exists fs, fields_text fs ts /\ means_fields t m fs m'.
  Proof.
    intros S. unfold merge_tokens. split.
    - intros H. eapply fields_loop_sound; [apply parse_value_sound|exact S|exact H].
    - intros (-> & fs & T & M). eapply (fields_loop_complete _ (length ts)); [apply parse_value_complete|exact T|exact M|exact S|lia|lia].
  Qed.
End M.
