(** C66: soundness and completeness of the writer against TextWritten.v. *)
From Coq Require Import String.
From Verif Require Import Base BaseProofs Wire WireProofs Unknown UnknownProofs Value Descr Fields Codec DescrOk DescrProofs FieldsProofs
  MergeProofs ItemRound WireSpec Float TextFormat TextLexProofs TextRound JsonNumbers JsonMeaning JsonWritten JsonWrittenScalars JsonWrittenValue
  JsonWrittenMain JsonWrittenAll TextWritten TextWrittenWords TextWrittenUnknown TextWrittenRows Prop_Decode EncBytes.
Open Scope list_scope.
Open Scope N_scope.

Lemma Forall2_in_l {A B} (R : A -> B -> Prop) (P : A -> Prop) l l' : Forall2 R l l' -> (forall a, In a l -> P a) -> Forall2 (fun a b => P a /\ R a b) l l'.
Proof. induction 1 as [|a b l l' H F IH]; intros G; constructor; [split; [apply G; now left|exact H]|]. apply IH. intros; apply G; now right. Qed.
Lemma Forall2_imp {A B} (R Q : A -> B -> Prop) l l' : (forall a b, R a b -> Q a b) -> Forall2 R l l' -> Forall2 Q l l'.
Proof. intros G. induction 1; constructor; auto. Qed.

(** Each part is written, or the depth is not enough for one of them *)
Lemma all_or_fuel {A B} (R : A -> B -> Prop) (g : nat -> A -> res bytes) (L : nat -> B -> bytes) l :
  (forall a, In a l -> (exists x, R a x /\ forall i, g i a = Ok (L i x)) \/ forall i, g i a = Fuel) ->
  (exists xs, Forall2 R l xs /\ Forall2 (fun a x => forall i, g i a = Ok (L i x)) l xs) \/ forall i sep, rjoin sep (map (g i) l) = Fuel.
Proof.
  induction l as [|a l IH]; intros H; [left; exists []; split; constructor|].
  destruct (H a (or_introl eq_refl)) as [(x & H1 & H2)|H1].
  - destruct IH as [(xs & F1 & F2)|F]; [intros; apply H; now right|left; exists (x :: xs); split; constructor; assumption|].
    right. intros i sep. cbn [map]. destruct l as [|b l]; [discriminate (F i sep)|]. rewrite rjoin_cons by discriminate. rewrite H2. cbn [rbind]. rewrite F. reflexivity.
  - right. intros i sep. cbn [map]. destruct l as [|b l]; [cbn; apply H1|]. rewrite rjoin_cons by discriminate. rewrite H1. reflexivity.
Qed.
Lemma rjoin_all {A B} (g : nat -> A -> res bytes) (L : nat -> B -> bytes) l xs i sep :
  Forall2 (fun a x => forall i, g i a = Ok (L i x)) l xs -> rjoin sep (map (g i) l) = Ok (between sep (map (L i) xs)).
Proof.
  intros F. rewrite <- rjoin_ok. f_equal. rewrite map_map. induction F as [|a x l xs H F IH]; [reflexivity|]. cbn [map]. now rewrite H, IH.
Qed.

Section All.
  Variables (E : text_externs) (t : tables) (o : topt).
  Hypothesis Hwf : wf t.
  Let Ht : tables_ok t := proj1 Hwf.
  Let p := o_pretty o.

  (** ** Words *)
  Lemma scalar_text_iff k v s : sc_okb k v = true -> scalar_text E t k v s <-> fmt_scalar E t v (Some k) = Some s.
  Proof.
    intros Hs. destruct v; cbn [fmt_scalar].
    - split; [inversion_clear 1; reflexivity|]. destruct b; intros [= <-]; constructor.
    - split; [inversion_clear 1; f_equal; symmetry; now apply int_shown_iff|]. intros [= <-]. constructor. now apply int_shown_iff.
    - split; [inversion_clear 1; f_equal; symmetry; now apply int_shown_iff|]. intros [= <-]. constructor. now apply int_shown_iff.
    - split; [inversion_clear 1; f_equal; symmetry; now apply decimal_iff|]. intros [= <-]. constructor. now apply decimal_iff.
    - split; [inversion_clear 1; f_equal; symmetry; now apply decimal_iff|]. intros [= <-]. constructor. now apply decimal_iff.
    - split; [inversion_clear 1; reflexivity|]. intros [= <-]. constructor.
    - split; [inversion_clear 1; reflexivity|]. intros [= <-]. constructor.
    - assert (Hb : bytes_ok s0). { destruct k; try discriminate Hs. cbn [sc_okb] in Hs. apply bytes_okb_ok. now apply andb_true_iff in Hs. }
      split; [inversion_clear 1; f_equal; symmetry; now apply quoted_iff|]. intros [= <-]. constructor. now apply quoted_iff.
    - assert (Hb : bytes_ok s0). { destruct k; try discriminate Hs. cbn [sc_okb] in Hs. now apply bytes_okb_ok. }
      split; [inversion_clear 1; f_equal; symmetry; now apply quoted_iff|]. intros [= <-]. constructor. now apply quoted_iff.
    - destruct k; try discriminate Hs. split.
      + inversion_clear 1 as [| | | | | | | | | |e z' s' H1|e z' s' H1 H2]; rewrite H1; [reflexivity|]. f_equal. symmetry. now apply int_shown_iff.
      + destruct (enum_name E t _ _) as [nm|] eqn:En; intros [= <-]; [now apply st_enum|]. apply st_number; [exact En|]. now apply int_shown_iff.
    - split; [inversion 1|discriminate].
    - split; [inversion 1|discriminate].
    - split; [inversion 1|discriminate].
  Qed.
  Lemma key_text_iff k key s : mk_okb k key = true -> key_text key s <-> s = fmt_map_key key.
  Proof.
    intros Hk. destruct key; cbn [fmt_map_key].
    - split; [inversion_clear 1; reflexivity|]. intros ->. destruct b; constructor.
    - split; [inversion_clear 1; now apply int_shown_iff|]. intros ->. constructor. now apply int_shown_iff.
    - split; [inversion_clear 1; now apply int_shown_iff|]. intros ->. constructor. now apply int_shown_iff.
    - split; [inversion_clear 1; now apply decimal_iff|]. intros ->. constructor. now apply decimal_iff.
    - split; [inversion_clear 1; now apply decimal_iff|]. intros ->. constructor. now apply decimal_iff.
    - assert (Hb : bytes_ok s0). { destruct k; try discriminate Hk. cbn [mk_okb] in Hk. apply bytes_okb_ok. now apply andb_true_iff in Hk. }
      split; [inversion_clear 1; now apply quoted_iff|]. intros ->. constructor. now apply quoted_iff.
  Qed.
  Lemma label_iff d n f s : get_field t d n = Some f -> field_label t f s <-> s = print_name t f.
  Proof.
    intros Hg. unfold field_label, print_name. pose proof (get_field_ok _ _ _ _ Ht Hg) as Hok. pose proof (fo_kind _ _ Hok) as Hk.
    destruct (fd_kind f); try reflexivity.
    cbn [kind_okb] in Hk. destruct (nth_error (t_messages t) _) as [mi|] eqn:Em.
    - split; [intros (mi' & H & ->); congruence|]. intros ->. eauto.
    - exfalso. apply nth_error_None in Em. unfold kind_okb in Hk. apply Nat.ltb_lt in Hk. lia.
  Qed.

  (** ** Values that have the type of a field *)
  Definition entry_fits (kf vf : fdl) (kv : mapkey * value) : Prop := mk_okb (fd_kind kf) (fst kv) = true /\ ok_elem t (snd kv) (fd_kind vf) = true.
  Definition tfits (v : value) (k : kind) : Prop :=
    match v with
    | VList vs => Forall (fun x => ok_elem t x k = true) vs
    | VMap kvs => exists e kf vf, kind_msg k = Some e /\ get_field t e 2 = Some vf /\ Forall (entry_fits kf vf) kvs
    | _ => ok_elem t v k = true
    end.
  Lemma elem_tfits v k : ok_elem t v k = true -> tfits v k.
  Proof. destruct v; try (intros H; exact H); discriminate. Qed.
  Lemma field_tfits f v : ok_field t f v = true -> tfits v (fd_kind f).
  Proof.
    intros H. destruct v; cbn [tfits ok_field] in *; try (rewrite !andb_true_iff in H; apply H).
    - apply andb_true_iff in H. destruct H as [_ H]. apply Forall_forall. now apply forallb_forall.
    - destruct (kind_msg (fd_kind f)) as [e|] eqn:Ek; [|discriminate]. destruct (fd_is_map f) eqn:Em; [|discriminate].
      destruct (entry_key t e) as [kf|]; [|discriminate]. destruct (entry_value t e) as [vf|] eqn:Ev; [|discriminate].
      apply andb_true_iff in H. destruct H as [_ H]. exists e, kf, vf. split; [reflexivity|]. split; [exact Ev|].
      apply Forall_forall. rewrite forallb_forall in H. intros x Hx. apply H in Hx. now apply andb_true_iff in Hx.
  Qed.

  (** ** Rows *)
  Definition row_fits (r : row) : Prop :=
    match r with
    | RField f v => (exists d, get_field t d (fd_number f) = Some f) /\ tfits v (fd_kind f)
    | RExt f v => tfits v (fd_kind f)
    | RUnk u => uf_ok u
    end.
  Definition row_from (m : dynmsg) (r : row) : Prop :=
    match r with RField f v | RExt f v => In (fd_number f, SVal v) (dm_fields m) \/ flat v | RUnk _ => True end.
  Lemma shown_fits m f : msg_ok t m -> find_desc t (dm_desc m) (fd_number f) = Some f ->
    has_field t m f = true \/ flat (fd_default_value t f) ->
    tfits (get_field_value t m f) (fd_kind f) /\ (In (fd_number f, SVal (get_field_value t m f)) (dm_fields m) \/ flat (get_field_value t m f)).
  Proof.
    intros Ho Hf Hh. split.
    - apply field_tfits. destruct m as [d fs]. unfold get_field_value. eapply stored_ok; eauto.
    - unfold get_field_value, fs_get. destruct (fs_get_value (dm_fields m) (fd_number f)) as [w|] eqn:Eg.
      + left. unfold fs_get_value in Eg. destruct (bt_get (fd_number f) (dm_fields m)) as [[|v'|us]|] eqn:Eb; try discriminate. injection Eg as ->. now apply bt_get_In.
      + right. destruct Hh as [Hh|Hh]; [|exact Hh]. exfalso. unfold has_field, fs_has in Hh. rewrite Eg in Hh. discriminate.
  Qed.
  Lemma row_in m r : ok_msg t m = true -> In r (row_list t o m) -> row_fits r /\ row_from m r.
  Proof.
    intros Ho H. apply ok_msg_iff in Ho. unfold row_list in H. apply in_app_iff in H. destruct H as [H|H].
    - apply in_map_iff in H. destruct H as (f & <- & H). apply filter_In in H. destruct H as [H Hs]. apply (descs_get t Hwf) in H.
      destruct (shown_fits m f Ho) as [G1 G2].
      + unfold find_desc. now rewrite H.
      + unfold to_show in Hs. apply orb_true_iff in Hs. destruct Hs as [Hs|Hs]; [now left|right]. apply andb_true_iff in Hs. destruct Hs as [_ Hs]. apply negb_true_iff in Hs.
        eapply default_flat; eauto.
      + split; [split; [eauto|exact G1]|exact G2].
    - apply in_concat in H. destruct H as (rs & H & Hr). apply in_map_iff in H. destruct H as ([n x] & Ex & H). cbn [snd] in Ex. subst x.
      apply (rest_in t o Hwf) in H; [|exact Ho]. destruct H as [(f & Hx & Hh & ->)|(us & _ & Hg & ->)].
      + destruct Hr as [<-|[]]. pose proof (get_ext_number _ _ _ _ Ht Hx) as En.
        apply (shown_fits m f Ho); [|now left]. unfold find_desc. rewrite En. rewrite (field_ext_disjoint _ _ _ _ Hwf Hx). exact Hx.
      + apply in_map_iff in Hr. destruct Hr as (u & <- & Hu). split; [|exact I]. cbn [row_fits]. pose proof (mo_slots _ _ Ho _ _ Hg) as Hk.
        unfold ok_slot in Hk. cbn [fst snd] in Hk. destruct (find_desc t (dm_desc m) n); [discriminate|]. rewrite !andb_true_iff in Hk. destruct Hk as [_ H2].
        rewrite forallb_forall in H2. apply H2 in Hu. apply andb_true_iff in Hu. now apply uf_okb_ok.
  Qed.

  (** ** The relations on lists *)
  Inductive row_text : row -> bytes * tval -> Prop :=
  | rr_field f v s x : field_label t f s -> value_text E t o (fd_kind f) v x -> row_text (RField f v) (s, x)
  | rr_ext f v x : value_text E t o (fd_kind f) v x -> row_text (RExt f v) (s2b "[" ++ fd_full f ++ s2b "]", x)
  | rr_unk u x : unknown_text u x -> row_text (RUnk u) x.
  Inductive entry_text (k : kind) : mapkey * value -> tval -> Prop :=
  | ee_all key v s x : key_text key s -> value_text E t o k v x -> entry_text k (key, v) (TBody [(s2b "key", TWord s); (s2b "value", x)]).
  Lemma items_all k l xs : Forall2 (value_text E t o k) l xs -> items_text E t o k l xs.
  Proof. induction 1; constructor; assumption. Qed.
  Lemma entries_all k l xs : Forall2 (entry_text k) l xs -> entries_text E t o k l xs.
  Proof. induction 1 as [|a b l xs H F IH]; [constructor|]. destruct H. constructor; assumption. Qed.
  Lemma rows_all l xs : Forall2 row_text l xs -> rows_text E t o l xs.
  Proof. induction 1 as [|a b l xs H F IH]; [constructor|]. destruct H; constructor; assumption. Qed.

  (** ** Steps *)
  Section Steps.
    Variable any : nat -> dynmsg -> option (res bytes).
    Let fmt := fmt_value E t o any.
    Definition prints (v : value) (k : kind) (x : tval) : Prop :=
      (forall i, fmt v i (Some k) = Ok (lay p i x)) /\ colon x = match v with VMessage _ => [] | _ => [58] end.
    Definition row_prints (r : row) (f : bytes * tval) : Prop := forall i, fmt_row E t o any i r = Ok (lay_field p i f).
    Definition fmt_entry (k : kind) (i : nat) (kv : mapkey * value) : res bytes :=
      if o_pretty o then
        let! x := field_value o (snd kv) (fmt (snd kv) (2 + i)%nat (Some k)) in
        Ok (123 :: newline (2 + i) ++ s2b "key: " ++ fmt_map_key (fst kv) ++ newline (2 + i) ++ s2b "value" ++ x ++ newline i ++ [125])
      else
        let! x := field_value o (snd kv) (fmt (snd kv) i (Some k)) in
        Ok (s2b "{key:" ++ fmt_map_key (fst kv) ++ s2b ",value" ++ x ++ [125]).

    Lemma scalar_prints k v s : sc_okb k v = true -> scalar_text E t k v s -> prints v k (TWord s).
    Proof.
      intros Hs H. apply scalar_text_iff in H; [|exact Hs]. unfold prints, fmt.
      destruct v; try (split; [intros i; cbn [fmt_value]; rewrite H; reflexivity|reflexivity]); destruct k; discriminate Hs.
    Qed.
    Lemma list_prints k l xs : Forall2 (fun v x => forall i, fmt v i (Some k) = Ok (lay p i x)) l xs -> prints (VList l) k (TList xs).
    Proof.
      intros F. split; [|reflexivity]. intros i. unfold fmt in *. cbn [fmt_value].
      rewrite (rjoin_all (fun i x => fmt_value E t o any x i (Some k)) (lay p) l xs i (44 :: padding o) F). cbn [rbind lay]. unfold padding. fold p. destruct p; reflexivity.
    Qed.
    Lemma map_eq k e vf kvs i : kind_msg k = Some e -> get_field t e 2 = Some vf ->
      fmt (VMap kvs) i (Some k) = let! b := rjoin (44 :: padding o) (map (fmt_entry (fd_kind vf) i) kvs) in Ok (91 :: b ++ [93]).
    Proof.
      intros H1 H2. unfold fmt. cbn [fmt_value]. unfold map_value_kind, entry_value, MAP_VALUE_NUMBER. rewrite H1, H2. cbn [rbind]. reflexivity.
    Qed.
    Lemma map_prints k e vf kvs xs : kind_msg k = Some e -> get_field t e 2 = Some vf ->
      Forall2 (fun kv x => forall i, fmt_entry (fd_kind vf) i kv = Ok (lay p i x)) kvs xs -> prints (VMap kvs) k (TList xs).
    Proof.
      intros H1 H2 F. split; [|reflexivity]. intros i. rewrite (map_eq k e vf kvs i H1 H2).
      rewrite (rjoin_all (fmt_entry (fd_kind vf)) (lay p) kvs xs i (44 :: padding o) F). cbn [rbind lay]. unfold padding. fold p. destruct p; reflexivity.
    Qed.
    Lemma entry_prints k key v x : prints v k x -> forall i, fmt_entry k i (key, v) = Ok (lay p i (TBody [(s2b "key", TWord (fmt_map_key key)); (s2b "value", x)])).
    Proof.
      intros [H1 H2] i. unfold fmt_entry. cbn [fst snd lay map between colon app]. fold p. unfold field_value, padding. fold p. rewrite H2.
      destruct p; rewrite H1; cbn [rbind]; f_equal; destruct v; cbn [app]; rewrite <- ?app_assoc; reflexivity.
    Qed.
    Lemma value_field v k x i : prints v k x -> field_value o v (fmt_value E t o any v i (Some k)) = Ok (colon x ++ padding o ++ lay p i x).
    Proof. intros [H1 H2]. unfold fmt in H1. unfold field_value. rewrite H1, H2. reflexivity. Qed.
    Lemma pad_p : padding o = if p then s2b " " else [].
    Proof. unfold padding. fold p. destruct p; reflexivity. Qed.
    Lemma field_prints d f v s x : get_field t d (fd_number f) = Some f -> field_label t f s -> prints v (fd_kind f) x -> row_prints (RField f v) (s, x).
    Proof.
      intros Hg Hs H i. apply (label_iff _ _ _ _ Hg) in Hs. subst s. cbn [fmt_row]. rewrite (value_field v _ x i H). cbn [rbind]. unfold lay_field. cbn [fst snd]. now rewrite pad_p.
    Qed.
    Lemma ext_prints f v x : prints v (fd_kind f) x -> row_prints (RExt f v) (s2b "[" ++ fd_full f ++ s2b "]", x).
    Proof.
      intros H i. cbn [fmt_row]. rewrite (value_field v _ x i H). cbn [rbind]. unfold lay_field. cbn [fst snd]. rewrite pad_p. f_equal.
      rewrite <- !app_assoc. reflexivity.
    Qed.
    Lemma unk_prints u x : uf_ok u -> unknown_text u x -> row_prints (RUnk u) x.
    Proof. intros Hu H i. cbn [fmt_row]. destruct (unknown_shown o (S (girth u)) u Hu ltac:(lia)) as (f & F1 & F2). apply F1 in H. subst x. apply F2. Qed.
    Lemma unk_row u : uf_ok u -> exists x, row_text (RUnk u) x /\ row_prints (RUnk u) x.
    Proof.
      intros Hu. destruct (unknown_shown o (S (girth u)) u Hu ltac:(lia)) as (f & F1 & F2). exists f. assert (unknown_text u f) by now apply F1.
      split; [now constructor|]. intros i. apply F2.
    Qed.
    Lemma rows_print l fs i : Forall2 row_prints l fs -> rjoin (separator o i) (map (fmt_row E t o any i) l) = Ok (lay_fields p i fs).
    Proof.
      intros F. rewrite (rjoin_all (fmt_row E t o any) (lay_field p) l fs i (separator o i) F). reflexivity.
    Qed.
    Lemma msg_prints m k fs : ok_msg t m = true -> row_list t o m <> [] -> fs <> [] -> (forall i, msg_fmt E t o any i m = Ok (lay_fields p i fs)) ->
      prints (VMessage m) k (TBody fs) /\ forall k' i, fmt (VMessage m) i k' = Ok (lay p i (TBody fs)).
    Proof.
      intros Ho Hr Hf H. assert (G : forall k' i, fmt (VMessage m) i k' = Ok (lay p i (TBody fs))).
      { intros k' i. unfold fmt. rewrite (value_rows E t o Hwf any m i k' Ho). destruct (row_list t o m); [contradiction|].
        unfold p in *. rewrite <- (braces_lay o i fs Hf). unfold braces. cbv beta. rewrite !H. reflexivity. }
      split; [|exact G]. split; [intros i; apply G|reflexivity].
    Qed.
    Lemma nothing_prints m k : ok_msg t m = true -> row_list t o m = [] -> prints (VMessage m) k (TBody []) /\ forall k' i, fmt (VMessage m) i k' = Ok (lay p i (TBody [])).
    Proof.
      intros Ho Hr. assert (G : forall k' i, fmt (VMessage m) i k' = Ok (lay p i (TBody []))).
      { intros k' i. unfold fmt. rewrite (value_rows E t o Hwf any m i k' Ho), Hr. reflexivity. }
      split; [|exact G]. split; [intros i; apply G|reflexivity].
    Qed.
    Lemma value_text_colon k v x : value_text E t o k v x -> colon x = match v with VMessage _ => [] | _ => [58] end.
    Proof. destruct 1 as [k v s H| | |]; try reflexivity. destruct H; reflexivity. Qed.

    (** ** Every message is written right or the depth is not enough *)
    Definition any_good : Prop := forall m, ok_msg t m = true ->
      ((forall i, any i m = None) /\ (o_expand_any o = true -> forall url body, ~ expands t m url body)) \/
      (exists url body fs, o_expand_any o = true /\ expands t m url body /\ body_text E t o body fs /\
         forall i, any i m = Some (Ok (lay_field p i (s2b "[" ++ url ++ s2b "]", TBody fs)))) \/
      (forall i, any i m = Some Fuel).
    Hypothesis Hany : any_good.
    Let Good v := forall k, tfits v k -> (exists x, value_text E t o k v x /\ prints v k x) \/ forall i, fmt v i (Some k) = Fuel.

    Lemma scalar_good v : (forall m, v <> VMessage m) -> (forall l, v <> VList l) -> (forall l, v <> VMap l) -> Good v.
    Proof.
      intros N1 N2 N3 k Hk. left. assert (Hs : sc_okb k v = true). { apply (scalar_fits t); [|exact N1]. destruct v; try exact Hk; [now destruct (N2 vs)|now destruct (N3 kvs)]. }
      destruct (fmt_scalar E t v (Some k)) as [s|] eqn:Es.
      - exists (TWord s). assert (H : scalar_text E t k v s) by now apply scalar_text_iff. split; [now constructor|]. now apply scalar_prints.
      - exfalso. destruct v; cbn [fmt_scalar] in Es; try discriminate Es; [|now destruct (N1 m)|now destruct (N2 vs)|now destruct (N3 kvs)].
        destruct k; try discriminate Es. destruct (enum_name E t _ _); discriminate Es.
    Qed.
    Lemma list_good l : Forall Good l -> Good (VList l).
    Proof.
      intros Hl k Hk. cbn [tfits] in Hk. destruct (all_or_fuel (value_text E t o k) (fun i v => fmt v i (Some k)) (lay p) l) as [(xs & F1 & F2)|F].
      - intros v Hin. rewrite Forall_forall in Hl, Hk. destruct (Hl v Hin k (elem_tfits _ _ (Hk v Hin))) as [(x & H1 & [H2 _])|H]; [left; eauto|now right].
      - left. exists (TList xs). split; [apply vt_list; now apply items_all|now apply list_prints].
      - right. intros i. unfold fmt in *. cbn [fmt_value]. rewrite F. reflexivity.
    Qed.
    Lemma map_good kvs : Forall (fun kv => Good (snd kv)) kvs -> Good (VMap kvs).
    Proof.
      intros Hl k (e & kf & vf & K1 & K2 & K3). rewrite Forall_forall in Hl, K3.
      destruct (all_or_fuel (entry_text (fd_kind vf)) (fmt_entry (fd_kind vf)) (lay p) kvs) as [(xs & F1 & F2)|F].
      - intros [key v] Hin. destruct (K3 _ Hin) as [Kk Kv]. cbn [fst snd] in Kk, Kv. pose proof (Hl _ Hin (fd_kind vf) (elem_tfits _ _ Kv)) as Gv. cbn [snd] in Gv. destruct Gv as [(x & H1 & H2)|H].
        + left. exists (TBody [(s2b "key", TWord (fmt_map_key key)); (s2b "value", x)]). split; [apply ee_all; [apply (key_text_iff _ _ _ Kk); reflexivity|exact H1]|]. now apply entry_prints.
        + right. intros i. cbn [snd] in H. unfold fmt_entry. cbn [fst snd]. rewrite !H. unfold field_value. cbn [rbind]. now case (o_pretty o).
      - left. exists (TList xs). split; [eapply vt_map; eauto; now apply entries_all|eapply map_prints; eauto].
      - right. intros i. rewrite (map_eq k e vf kvs i K1 K2), F. reflexivity.
    Qed.
    Lemma flat_good v : flat v -> Good v.
    Proof.
      intros Hf. destruct v; try (apply scalar_good; discriminate).
      - destruct Hf.
      - destruct vs; [|destruct Hf]. apply list_good. constructor.
      - destruct kvs; [|destruct Hf]. apply map_good. constructor.
    Qed.
    Lemma msg_good m : ok_msg t m = true -> (forall n v, In (n, SVal v) (dm_fields m) -> Good v) ->
      (exists fs, msg_text E t o m fs /\ (row_list t o m <> [] -> fs <> []) /\ forall i, msg_fmt E t o any i m = Ok (lay_fields p i fs)) \/ forall i, msg_fmt E t o any i m = Fuel.
    Proof.
      intros Ho Hs. destruct (Hany m Ho) as [[A N]|[(url & body & fs & Ee & X & B & A)|A]].
      - destruct (all_or_fuel row_text (fmt_row E t o any) (lay_field p) (row_list t o m)) as [(fs & F1 & F2)|F].
        + intros r Hin. destruct (row_in m r Ho Hin) as [R1 R2]. destruct r as [f v|f v|u]; cbn [row_fits row_from] in R1, R2.
          * destruct R1 as [(d & Hg) R1]. assert (Gv : Good v) by (destruct R2; [eapply Hs; eauto|now apply flat_good]).
            destruct (Gv _ R1) as [(x & H1 & H2)|H]; [left|right].
            -- exists (print_name t f, x). assert (L : field_label t f (print_name t f)) by now apply (label_iff _ _ _ _ Hg). split; [now constructor|]. exact (field_prints _ _ _ _ _ Hg L H2).
            -- intros i. cbn [fmt_row]. unfold fmt in H. rewrite H. reflexivity.
          * assert (Gv : Good v) by (destruct R2; [eapply Hs; eauto|now apply flat_good]).
            destruct (Gv _ R1) as [(x & H1 & H2)|H]; [left|right].
            -- eexists. split; [apply rr_ext; exact H1|]. exact (ext_prints _ _ _ H2).
            -- intros i. cbn [fmt_row]. unfold fmt in H. rewrite H. reflexivity.
          * left. now apply unk_row.
        + left. exists fs. split; [|split].
          * apply mt_fields with (l := row_list t o m); [exact N|apply (rows_iff t o Hwf); [now apply ok_msg_iff|reflexivity]|now apply rows_all].
          * intros Hr. destruct F1; [contradiction|discriminate].
          * intros i. unfold msg_fmt. rewrite A. now apply rows_print.
        + right. intros i. unfold msg_fmt. rewrite A. apply F.
      - left. eexists. split; [eapply mt_any; eauto|]. split; [discriminate|]. intros i. unfold msg_fmt. rewrite A. reflexivity.
      - right. intros i. unfold msg_fmt. now rewrite A.
    Qed.
    Lemma body_good m : ok_msg t m = true -> (forall n v, In (n, SVal v) (dm_fields m) -> Good v) ->
      (exists fs, body_text E t o m fs /\ (forall k, prints (VMessage m) k (TBody fs)) /\ forall k i, fmt (VMessage m) i k = Ok (lay p i (TBody fs))) \/
      forall k i, fmt (VMessage m) i k = Fuel.
    Proof.
      intros Ho Hs. pose proof (rows_iff t o Hwf m [] (proj1 (ok_msg_iff _ _) Ho)) as R. destruct (row_list t o m) as [|r l] eqn:Er.
      - left. exists []. split; [apply bt_nothing; now apply R|]. split; [intros k; now apply (nothing_prints m k)|exact (proj2 (nothing_prints m KBool Ho Er))].
      - destruct (msg_good m Ho Hs) as [(fs & H1 & H2 & H3)|H]; [left|right].
        + exists fs. split; [apply bt_fields; [intros Q; apply R in Q; discriminate|exact H1]|].
          assert (Hn : row_list t o m <> []) by (rewrite Er; discriminate).
          split; [intros k; now apply (msg_prints m k fs Ho Hn (H2 Hn) H3)|]. exact (proj2 (msg_prints m KBool fs Ho Hn (H2 Hn) H3)).
        + intros k i. unfold fmt. rewrite (value_rows E t o Hwf any m i k Ho), Er. unfold braces. cbv beta. rewrite !H. now case (o_pretty o).
    Qed.
    Lemma value_good v : Good v.
    Proof.
      revert v. apply value_inside. intros v Hi. destruct v; try (apply flat_good; exact I).
      - intros k Hk. destruct (body_good m) as [(fs & H1 & H2 & _)|H].
        + now apply elem_msg in Hk.
        + destruct m as [d fs]. intros n w Hw. exact (proj1 (inside_slot Good d fs n w Hi Hw)).
        + left. exists (TBody fs). split; [now constructor|apply H2].
        + right. intros i. apply H.
      - apply list_good. apply inside_list in Hi. eapply Forall_impl; [|exact Hi]. cbn. tauto.
      - apply map_good. apply inside_map in Hi. eapply Forall_impl; [|exact Hi]. cbn. tauto.
    Qed.
  End Steps.

  Lemma no_expansion m : o_expand_any o = false \/ full_name t (dm_desc m) <> any_name -> o_expand_any o = true -> forall url body, ~ expands t m url body.
  Proof. intros [H|H] He url body [X _]; [congruence|contradiction]. Qed.
  Lemma expand_test (m : dynmsg) : negb (o_expand_any o) || negb (bytes_eqb (full_name t (dm_desc m)) any_name) = true -> o_expand_any o = false \/ full_name t (dm_desc m) <> any_name.
  Proof.
    rewrite orb_true_iff, !negb_true_iff. intros [H|H]; [now left|right]. intros Q. rewrite Q in H. rewrite (proj2 (bytes_eqb_eq _ _) eq_refl) in H. discriminate.
  Qed.
  Lemma any_line url fs i : (let! b := field_value o (VMessage (DM 0 [])) (Ok (lay p i (TBody fs))) in Ok (91 :: url ++ 93 :: b)) = Ok (lay_field p i (s2b "[" ++ url ++ s2b "]", TBody fs)).
  Proof. unfold field_value. cbn [rbind app]. unfold lay_field. cbn [fst snd colon app]. rewrite pad_p. f_equal. rewrite <- !app_assoc. reflexivity. Qed.
  Lemma not_expanded n i m : ok_msg t m = true -> (o_expand_any o = true -> forall url body, ~ expands t m url body) -> fmt_any E t o (S n) i m = None.
  Proof.
    intros Ho N. cbn [fmt_any]. destruct (o_expand_any o) eqn:Ee; [|reflexivity]. cbn [negb orb]. destruct (negb _); [reflexivity|].
    destruct (as_any_cases t o Hwf m Ho) as [(url & body & _ & X & _)|[-> _]]; [exfalso; eapply N; eauto|reflexivity].
  Qed.
  Theorem fmt_any_good n : any_good (fmt_any E t o n).
  Proof.
    induction n as [|n IH]; intros m Ho; cbn [fmt_any].
    - destruct (negb (o_expand_any o) || negb (bytes_eqb (full_name t (dm_desc m)) any_name)) eqn:Et; [left|auto].
      split; [reflexivity|]. apply no_expansion. now apply expand_test.
    - destruct (negb (o_expand_any o) || negb (bytes_eqb (full_name t (dm_desc m)) any_name)) eqn:Et.
      { left. split; [reflexivity|]. apply no_expansion. now apply expand_test. }
      apply orb_false_iff in Et. destruct Et as [Ee _]. apply negb_false_iff in Ee.
      destruct (as_any_cases t o Hwf m Ho) as [(url & body & -> & X & Hb)|[-> N]]; [right|left; auto].
      destruct (body_good (fmt_any E t o n) IH body Hb) as [(fs & H1 & _ & H2)|H].
      + intros; now apply value_good.
      + left. exists url, body, fs. split; [exact Ee|]. split; [exact X|]. split; [exact H1|]. intros i. rewrite H2. f_equal. apply any_line.
      + right. intros i. rewrite H. reflexivity.
  Qed.

  Theorem text_good n m : ok_msg t m = true -> (exists b, to_text E t o n m = Ok b /\ text_of E t o m b) \/ to_text E t o n m = Fuel.
  Proof.
    intros Ho. unfold to_text. rewrite (message_rows E t o Hwf) by exact Ho.
    destruct (msg_good (fmt_any E t o n) (fmt_any_good n) m Ho) as [(fs & H1 & _ & H2)|H].
    - intros n0 v _. exact (value_good (fmt_any E t o n) (fmt_any_good n) v).
    - left. exists (lay_fields p 0 fs). split; [apply H2|]. exists fs. auto.
    - right. apply H.
  Qed.

  (** ** What is right is written *)
  Let pr n := prints (fmt_any E t o n).
  Theorem text_complete :
    (forall k v x, value_text E t o k v x -> tfits v k -> some_depth (fun n => pr n v k x)) /\
    (forall k l xs, items_text E t o k l xs -> Forall (fun x => ok_elem t x k = true) l ->
       some_depth (fun n => Forall2 (fun v x => forall i, fmt_value E t o (fmt_any E t o n) v i (Some k) = Ok (lay p i x)) l xs)) /\
    (forall k l xs, entries_text E t o k l xs -> (exists kf, Forall (fun kv => mk_okb kf (fst kv) = true /\ ok_elem t (snd kv) k = true) l) ->
       some_depth (fun n => Forall2 (fun kv x => forall i, fmt_entry (fmt_any E t o n) k i kv = Ok (lay p i x)) l xs)) /\
    (forall l fs, rows_text E t o l fs -> (forall r, In r l -> row_fits r) -> some_depth (fun n => Forall2 (row_prints (fmt_any E t o n)) l fs)) /\
    (forall m fs, msg_text E t o m fs -> ok_msg t m = true ->
       some_depth (fun n => (row_list t o m <> [] -> fs <> []) /\ forall i, msg_fmt E t o (fmt_any E t o n) i m = Ok (lay_fields p i fs))) /\
    (forall m fs, body_text E t o m fs -> ok_msg t m = true ->
       some_depth (fun n => forall k, pr n (VMessage m) k (TBody fs) /\ forall k' i, fmt_value E t o (fmt_any E t o n) (VMessage m) i k' = Ok (lay p i (TBody fs)))).
  Proof.
    apply written_text_ind.
    - intros k v s H Hk. apply always. intros n. apply scalar_prints; [|exact H]. destruct H; exact Hk.
    - intros k m fs _ IH Hk. apply elem_msg in Hk. eapply deep1; [exact (IH Hk)|]. cbn beta. intros n H. apply H.
    - intros k l vs _ IH Hk. eapply deep1; [exact (IH Hk)|]. cbn beta. intros n H. now apply list_prints.
    - intros k e vf kvs vs K1 K2 _ IH (e' & kf & vf' & K1' & K2' & K3). assert (e' = e) by congruence. subst e'. assert (vf' = vf) by congruence. subst vf'.
      eapply deep1; [apply IH; exists (fd_kind kf); exact K3|]. cbn beta. intros n H. eapply map_prints; eauto.
    - intros k _. apply always. constructor.
    - intros k v l x xs _ IH1 _ IH2 Hk. inversion_clear Hk. eapply deep2; [apply IH1; now apply elem_tfits|now apply IH2|]. cbn beta. intros n [H1 _] H2. constructor; assumption.
    - intros k _. apply always. constructor.
    - intros k key v l s x xs Hs _ IH1 _ IH2 (kf & Hk). inversion_clear Hk as [|? ? [Hk1 Hk2] Hk']. cbn [fst snd] in *. apply (key_text_iff _ _ _ Hk1) in Hs. subst s.
      eapply deep2; [apply IH1; now apply elem_tfits|apply IH2; eauto|]. cbn beta. intros n H1 H2. constructor; [|exact H2]. now apply entry_prints.
    - intros _. apply always. constructor.
    - intros f v l s x xs Hs _ IH1 _ IH2 Hl. destruct (Hl _ (or_introl eq_refl)) as [(d & Hg) Hf]. eapply deep2; [exact (IH1 Hf)|apply IH2; intros; apply Hl; now right|].
      cbn beta. intros n H1 H2. constructor; [|exact H2]. exact (field_prints _ _ _ _ _ _ Hg Hs H1).
    - intros f v l x xs _ IH1 _ IH2 Hl. eapply deep2; [exact (IH1 (Hl _ (or_introl eq_refl)))|apply IH2; intros; apply Hl; now right|].
      cbn beta. intros n H1 H2. constructor; [|exact H2]. exact (ext_prints _ _ _ _ H1).
    - intros u l x xs Hu _ IH Hl. eapply deep1; [apply IH; intros; apply Hl; now right|]. cbn beta. intros n H. constructor; [|exact H].
      apply unk_prints; [exact (Hl _ (or_introl eq_refl))|exact Hu].
    - intros m url body fs Ee X _ IH Ho. destruct (expands_as_any t o Hwf m url body Ho X) as [Ea Hb]. destruct (IH Hb) as [n0 Hn0].
      exists (S n0). intros [|n] Hn; [lia|]. destruct (Hn0 n ltac:(lia) KBool) as [_ H]. split; [discriminate|]. intros i. unfold msg_fmt. cbn [fmt_any].
      rewrite Ee. destruct X as [X _]. rewrite X, (proj2 (bytes_eqb_eq any_name any_name) eq_refl). cbn [negb orb]. rewrite Ea, H. apply any_line.
    - intros m l fs N Hl Hr IH Ho. apply (rows_iff t o Hwf) in Hl; [|now apply ok_msg_iff]. subst l.
      destruct (IH ltac:(intros r Hin; now apply (row_in m r Ho))) as [n0 Hn0]. exists (S n0). intros [|n] Hn; [lia|]. specialize (Hn0 (S n) ltac:(lia)). rename Hn0 into F.
      split; [intros Q; destruct F; [contradiction|discriminate]|]. intros i. unfold msg_fmt. rewrite (not_expanded n i m Ho N). now apply rows_print.
    - intros m Hl Ho. apply (rows_iff t o Hwf) in Hl; [|now apply ok_msg_iff]. apply always. intros n k. now apply nothing_prints.
    - intros m fs N _ IH Ho. assert (Hr : row_list t o m <> []) by (intros Q; apply N, (rows_iff t o Hwf); [now apply ok_msg_iff|now symmetry]).
      eapply deep1; [exact (IH Ho)|]. cbn beta. intros n [H1 H2] k. apply msg_prints; auto.
  Qed.

  Theorem text_iff m b : ok_msg t m = true -> (exists n, to_text E t o n m = Ok b) <-> text_of E t o m b.
  Proof.
    intros Ho. split.
    - intros [n H]. destruct (text_good n m Ho) as [(b' & H1 & H2)|H1]; [|congruence]. assert (b' = b) by congruence. now subst b'.
    - intros (fs & H & ->). destruct text_complete as (_ & _ & _ & _ & C & _). destruct (C m fs H Ho) as [n0 Hn]. exists n0. unfold to_text.
      rewrite (message_rows E t o Hwf) by exact Ho. apply (Hn n0). lia.
  Qed.
  Theorem text_deep m b : ok_msg t m = true -> text_of E t o m b -> exists n0, forall n, (n0 <= n)%nat -> to_text E t o n m = Ok b.
  Proof.
    intros Ho (fs & H & ->). destruct text_complete as (_ & _ & _ & _ & C & _). destruct (C m fs H Ho) as [n0 Hn]. exists n0. intros n Hle. unfold to_text.
    rewrite (message_rows E t o Hwf) by exact Ho. now apply (Hn n).
  Qed.
End All.
