(** Messages come back from JSON. *)
From Coq Require Import String.
From Verif Require Import Base BaseProofs Wire WireProofs Unknown Value Descr Fields Codec DescrOk DescrProofs FieldsProofs EncBytes MergeProofs
  RoundSpec RoundSame RoundMain ItemRound CompatSpec Compat Bulk AgreeProofs Prop_Decode
  Float TextFormat TextParse TextRound Json JsonSer JsonDe JsonWkt JsonMask JsonNumbers JsonSafe JsonWktBack JsonTree JsonScalarBack
  JsonTypedBack Prop_JsonRules.
Open Scope list_scope.
Open Scope N_scope.

(** ** What comes back *)

(** [jagree t v v']: like [agree], but the value of a google.protobuf.Any may be
    the encoding of any message that agrees with the one it was decoded as. *)
Inductive jagree (t : tables) : value -> value -> Prop :=
| jagree_scalar v : scalar v = true -> jagree t v v
| jagree_list l l' : Forall2 (jagree t) l l' -> jagree t (VList l) (VList l')
| jagree_map l l' :
    length l = length l' ->
    (forall k, map_get k l = None <-> map_get k l' = None) ->
    (forall k a b, map_get k l = Some a -> map_get k l' = Some b -> jagree t a b) ->
    jagree t (VMap l) (VMap l')
| jagree_message m m' :
    dm_desc m = dm_desc m' ->
    (forall n f, find_desc t (dm_desc m) n = Some f -> has_field t m f = has_field t m' f) ->
    (forall n f, find_desc t (dm_desc m) n = Some f -> has_field t m f = true ->
       jagree t (get_field_value t m f) (get_field_value t m' f)) ->
    (forall n f, find_desc t (dm_desc m) n = Some f -> has_field t m f = false ->
       get_field_value t m f = get_field_value t m' f) ->
    jagree t (VMessage m) (VMessage m')
| jagree_any m m' f1 f2 url name d b b' x x' :
    full_name t (dm_desc m) = s2b "google.protobuf.Any" -> dm_desc m = dm_desc m' ->
    get_field t (dm_desc m) 1 = Some f1 -> get_field t (dm_desc m) 2 = Some f2 ->
    get_field_value t m f1 = VString url -> get_field_value t m' f1 = VString url ->
    get_field_value t m f2 = VBytes b -> get_field_value t m' f2 = VBytes b' ->
    type_url_name url = Some name -> find_msg t name = Some d ->
    msg_decode t d b = Ok x -> enc_msg t x' = Ok b' ->
    jagree t (VMessage x) (VMessage x') ->
    jagree t (VMessage m) (VMessage m').

Lemma agree_jagree t v : forall v', agree t v v' -> jagree t v v'.
Proof.
  induction v as [b|z|z|n|n|n|n|s|s|z|d fs IH|vs IH|kvs IH] using value_ind'; intros v' H; inversion H; subst;
    try (apply jagree_scalar; reflexivity); try discriminate.
  - apply jagree_message; auto. intros n f Hf Hh. destruct (has_stored _ _ _ Hh) as (v & Hb & Eg & _). rewrite Eg.
    rewrite Forall_forall in IH. apply bt_get_In in Hb. apply (IH _ Hb). rewrite <- Eg. eauto.
  - apply jagree_list. match goal with F : Forall2 _ _ _ |- _ => clear H; revert IH; induction F as [|a b la lb Hab F IHF] end; intros IH; constructor; inversion_clear IH; auto.
  - rewrite Forall_forall in IH. apply jagree_map; auto. intros k a b Ha Hb. apply (IH _ (map_get_In _ _ _ Ha)). eauto.
Qed.
Lemma jagree_desc t m m' : jagree t (VMessage m) (VMessage m') -> dm_desc m = dm_desc m'.
Proof. intros H. inversion H; subst; auto. Qed.
Lemma jagree_has t f v v' : fdl_ok t f -> ok_field t f v = true -> jagree t v v' ->
  fd_has t f v' = fd_has t f v /\ (fd_has t f v = false -> v' = v).
Proof.
  intros Hf Hok H. inversion H; subst; try (split; [reflexivity|intros _; reflexivity]).
  - unfold fd_has, is_default_for. rewrite (ok_field_list t f _ Hok). match goal with F : Forall2 _ _ _ |- _ => inversion F; subst end; [auto|].
    split; [reflexivity|]. rewrite orb_true_r. discriminate.
  - unfold fd_has, is_default_for. rewrite (ok_field_map t f _ Hok). destruct l as [|[] l]; destruct l' as [|[] l']; try discriminate; [auto|].
    split; [reflexivity|]. rewrite orb_true_r. discriminate.
  - unfold fd_has. rewrite (ok_field_msg t f _ Hf Hok). split; [reflexivity|discriminate].
  - unfold fd_has. rewrite (ok_field_msg t f _ Hf Hok). split; [reflexivity|discriminate].
Qed.

Section Safe.
  Variables (E : json_externs) (t : tables) (full : bool).
  (** Conditions on a value and all inside it, [any] for those on a
      google.protobuf.Any. *)
  Fixpoint jsafe (any : dynmsg -> Prop) (v : value) (k : kind) {struct v} : Prop :=
    match v with
    | VMessage (DM d fs) =>
        match wkt_of t d with
        | Some WAny => any (DM d fs)
        | Some w => wkt_safe E t w (DM d fs)
        | None =>
            fold_right and True (map (fun kv =>
              match snd kv with
              | SVal v' => match find_desc t d (fst kv) with
                           | Some f => shown t full d (fst kv) v' = true /\ jsafe any v' (fd_kind f)
                           | None => True
                           end
              | _ => True
              end) fs)
        end
    | VList vs => fold_right and True (map (fun x => jsafe any x k) vs)
    | VMap kvs =>
        match kind_msg k with
        | Some e => match entry_value t e with
                    | Some vf => fold_right and True (map (fun kv => jsafe any (snd kv) (fd_kind vf)) kvs)
                    | None => True
                    end
        | None => True
        end
    | _ => scalar_backb E t v k = true
    end.
End Safe.

(** What a google.protobuf.Any needs: it holds a message of the pool that can
    be decoded, meets the same conditions and still has a length when it is
    encoded again.  [n] bounds how deep Any messages are nested in the values
    of others. *)
Fixpoint any_safe (E : json_externs) (t : tables) (o : jopt) (deny : bool) (n : nat) (m : dynmsg) : Prop :=
  match n with
  | O => False
  | S n' =>
      (msg_depth m <= 100)%nat /\ bulk_msg m < 2 ^ 64 /\
      exists f1 f2 url b name d x,
        get_field t (dm_desc m) 1 = Some f1 /\ get_field t (dm_desc m) 2 = Some f2 /\
        get_field_value t m f1 = VString url /\ get_field_value t m f2 = VBytes b /\
        type_url_name url = Some name /\ find_msg t name = Some d /\ msg_decode t d b = Ok x /\
        jsafe E t (negb (j_skip_default o)) (any_safe E t o deny n') (VMessage x) (KMessage d) /\
        forall j x' b', ser_value E t o (ser_any E t o n') (VMessage x) (KMessage d) = JOk j ->
          de E t deny (carried E j) false (TGoal (GMsg d)) = JOk (Some (VMessage x')) -> enc_msg t x' = Ok b' ->
          60 + N.of_nat (length url) + N.of_nat (length b') < 2 ^ 64
  end.

Lemma and_all {A} (P : A -> Prop) l : fold_right and True (map P l) <-> Forall P l.
Proof. induction l as [|a l IH]; cbn; [split; auto|]. rewrite IH. split; [intros []; now constructor|intros H; inversion H; auto]. Qed.

Lemma map_entry_of t d n f e : tables_ok t -> find_desc t d n = Some f -> fd_is_map f = true -> kind_msg (fd_kind f) = Some e -> is_map_entry t e = true.
Proof.
  intros Ht H Hm Hk. unfold find_desc in H. destruct (get_field t d n) as [g|] eqn:Eg.
  - injection H as ->. destruct (get_field_inv _ _ _ _ Ht Eg) as (m & i & fi & _ & _ & -> & _). cbn in Hm, Hk. unfold is_map_kind in Hm.
    apply andb_true_iff in Hm. destruct Hm as [_ Hm]. destruct (f_kind fi); try discriminate; cbn in Hk; congruence.
  - destruct (get_ext_inv _ _ _ _ Ht H) as (_ & Hin & _). destruct (msg_exts_inv _ _ _ Ht Hin) as (m & x & e' & _ & _ & _ & _ & -> & _).
    cbn in Hm, Hk. unfold is_map_kind in Hm. apply andb_true_iff in Hm. destruct Hm as [_ Hm]. destruct (x_kind e'); try discriminate; cbn in Hk; congruence.
Qed.
Lemma find_msg_full t name d : find_msg t name = Some d -> full_name t d = name.
Proof.
  unfold find_msg, full_name. intros H.
  assert (G : forall l i j, find_msg_from i l name = Some j -> exists m, nth_error l (j - i) = Some m /\ id_full (m_id m) = name /\ (i <= j)%nat).
  { induction l as [|m l IH]; intros i j; cbn [find_msg_from]; [discriminate|]. destruct (bytes_eqb (id_full (m_id m)) name) eqn:Eb.
    - intros [= <-]. rewrite Nat.sub_diag. exists m. apply bytes_eqb_eq in Eb. auto.
    - intros Hj. destruct (IH _ _ Hj) as (m' & H1 & H2 & H3). exists m'. replace (j - i)%nat with (S (j - S i))%nat by lia. split; [exact H1|]. split; [exact H2|lia]. }
  destruct (G _ _ _ H) as (m & H1 & H2 & _). rewrite Nat.sub_0_r in H1. rewrite H1. exact H2.
Qed.
Lemma wkt_any_name name : wkt_named name = Some WAny -> name = s2b "google.protobuf.Any".
Proof.
  unfold wkt_named. destruct (is_name name "google.protobuf.Any") eqn:Ea; [intros _; now apply bytes_eqb_eq|].
  repeat match goal with |- context [if ?c then _ else _] => destruct c; [discriminate|] end. discriminate.
Qed.
Lemma wkt_value_name name : wkt_named name = Some WValue -> name = s2b "google.protobuf.Value".
Proof.
  unfold wkt_named. do 15 (match goal with |- context [if ?c then _ else _] => destruct c; [discriminate|] end).
  destruct (is_name name "google.protobuf.Value") eqn:Ea; [intros _; now apply bytes_eqb_eq|].
  match goal with |- context [if ?c then _ else _] => destruct c; discriminate end.
Qed.

Section Round.
  Variables (E : json_externs) (t : tables) (o : jopt) (deny : bool).
  Hypothesis Hwf : wf t.
  Let Ht : tables_ok t := proj1 Hwf.
  Let full : bool := negb (j_skip_default o).
  Hypothesis Hpres : oneof_presenceb t = true.
  Hypothesis Hplain : defaults_plain t.
  Hypothesis Henum : forall e z nm, json_enum_name E t e z = Some nm -> enum_number t e nm = Some z.
  Hypothesis Hname : forall d n f, get_field t d n = Some f -> member_field t d (item_name o false f) = Some f.
  Hypothesis Hnamex : forall d n f, get_ext t d n = Some f -> member_field t d (item_name o true f) = Some f.
  Hypothesis Hdef : full = true -> forall d n f, get_field t d n = Some f -> fd_presence f = false -> is_repeated f = false ->
    scalar_backb E t (fd_default_value t f) (fd_kind f) = true.
  Hypothesis Hstd : forall d w, wkt_of t d = Some w -> standard t d (wkt_desc w).

  (** a message read back *)
  Record mback (s : jres json) (m : dynmsg) (j : json) (m' : dynmsg) : Prop := {
    mb_ser : s = JOk j;
    mb_de : de E t deny (carried E j) false (TGoal (GMsg (dm_desc m))) = JOk (Some (VMessage m'));
    mb_agree : jagree t (VMessage m) (VMessage m');
    mb_ok : ok_msg t m' = true;
    mb_desc : dm_desc m' = dm_desc m;
    mb_null : carried E j = JNull -> wkt_of t (dm_desc m) = Some WValue
  }.

  Lemma ser_wkt_typed any w m x : w <> WAny -> transcode_to t m (wkt_desc w) = JOk x -> ser_wkt E t o any w m = ser_typed E t o w x.
  Proof. intros Hw Hx. destruct w; try congruence; cbn [ser_wkt ser_typed wkt_desc] in *; rewrite ?Hx; reflexivity. Qed.

  Lemma wkt_back any w m : w <> WAny -> wkt_of t (dm_desc m) = Some w -> ok_msg t m = true -> wkt_safe E t w m ->
    exists j m', mback (ser_wkt E t o any w m) m j m'.
  Proof.
    intros Hna Hw Hm (Hdp & Hbk & Hz & Hs).
    destruct (wkt_there_and_back t (dm_desc m) (wkt_desc w) m Hwf (Hstd _ _ Hw) Hm eq_refl Hdp Hbk Hz) as (x & T & Ox & Dx & Px & Bx & Back).
    destruct (typed_comes_back E t o deny w (dm_desc m) x Hna Hw Ox Dx Px Bx (Hs x T)) as (j & x' & B).
    destruct (Back x' (tb_agree _ _ _ _ _ _ _ _ _ B) (tb_ok _ _ _ _ _ _ _ _ _ B) (tb_zeros _ _ _ _ _ _ _ _ _ B)
      (tb_depth _ _ _ _ _ _ _ _ _ B) (tb_bulk _ _ _ _ _ _ _ _ _ B)) as (m' & M1 & M2 & M3 & M4).
    exists j, m'. split.
    - rewrite (ser_wkt_typed any w m x Hna T). apply (tb_ser _ _ _ _ _ _ _ _ _ B).
    - rewrite (tb_de _ _ _ _ _ _ _ _ _ B). exact M1.
    - apply agree_jagree. exact M4.
    - exact M2.
    - exact M3.
    - intros Hn. rewrite Hw. f_equal. exact (tb_null _ _ _ _ _ _ _ _ _ B Hn).
  Qed.

  Section Any.
    Variables (any : dynmsg -> jres json) (Pany : dynmsg -> Prop).
    Hypothesis Hany : forall m, wkt_of t (dm_desc m) = Some WAny -> ok_msg t m = true -> Pany m -> exists j m', mback (any m) m j m'.
    Notation ser := (ser_value E t o any).
    Notation jsafe := (jsafe E t full Pany).

    (** null stands for the value also where it could mean an absent field *)
    Definition null_ok (k : kind) : Prop := forall f, fd_kind f = k -> null_field t f = de_atom E t deny JNull (kind_goal k).
    Record jback (v : value) (k : kind) (j : json) (v' : value) : Prop := {
      jb_ser : ser v k = JOk j;
      jb_de : de E t deny (carried E j) false (TGoal (kind_goal k)) = JOk (Some v');
      jb_agree : jagree t v v';
      jb_ok : ok_elem t v' k = true;
      jb_null : carried E j = JNull -> null_ok k
    }.
    Definition J (v : value) : Prop := forall k, ok_elem t v k = true -> jsafe v k -> exists j v', jback v k j v'.
    Definition inside (v : value) : Prop :=
      match v with VList vs => Forall J vs | VMap kvs => Forall (fun kv => J (snd kv)) kvs | _ => True end.

    Lemma scalar_J v : scalar v = true -> J v.
    Proof.
      intros Hv k Hok Hs. assert (Hsc : sc_okb k v = true) by (destruct v; try discriminate Hv; exact Hok).
      assert (Hb : scalar_backb E t v k = true) by (destruct v; try discriminate Hv; exact Hs).
      assert (Hk : kind_msg k = None) by (destruct v; destruct k; try discriminate Hv; try discriminate Hsc; reflexivity).
      destruct (scalar_back E t o deny v k Hsc Hb (fun e z nm _ => Henum e z nm)) as (j & J1 & J2 & J3 & J4).
      exists j, v. assert (Eg : kind_goal k = GScalar k) by (unfold kind_goal; now rewrite Hk). split.
      - destruct v; try discriminate Hv; cbn [ser_value]; rewrite J1; reflexivity.
      - rewrite Eg. destruct (carried E j); try discriminate J3; cbn [de target_goal de_atom]; exact J2.
      - now apply jagree_scalar.
      - exact Hok.
      - intros Hn f Hf. specialize (J4 Hn). unfold null_kind in J4. destruct k; try discriminate J4. unfold null_field. rewrite Hf. cbn [kind_msg].
        rewrite Eg. cbn [de_atom de_scalar]. unfold de_enum. now rewrite J4.
    Qed.

    (** ** Fields *)
    Record fback (f : fdl) (v : value) (j : json) (v' : value) : Prop := {
      fb_ser : ser v (fd_kind f) = JOk j;
      fb_de : de E t deny (carried E j) false (TOpt f) = JOk (Some v');
      fb_agree : jagree t v v';
      fb_ok : ok_field t f v' = true
    }.
    Definition p_in (q : value * json * value) : value := fst (fst q).
    Definition p_json (q : value * json * value) : json := snd (fst q).
    Definition p_out (q : value * json * value) : value := snd q.
    Definition p_back (k : kind) (q : value * json * value) : Prop := jback (p_in q) k (p_json q) (p_out q).
    Lemma list_J k vs : Forall J vs -> forallb (fun x => ok_elem t x k) vs = true -> Forall (fun x => jsafe x k) vs ->
      exists q, map p_in q = vs /\ Forall (p_back k) q.
    Proof.
      induction vs as [|v vs IH]; intros HJ Hok Hs; [exists []; auto|]. inversion_clear HJ. inversion_clear Hs. cbn [forallb] in Hok.
      apply andb_true_iff in Hok. destruct Hok as [Hok1 Hok2]. destruct (IH ltac:(assumption) Hok2 ltac:(assumption)) as (q & <- & Hq).
      match goal with H : J v, H1 : jsafe v k |- _ => destruct (H k Hok1 H1) as (j & v' & B) end.
      exists ((v, j, v') :: q). split; [reflexivity|]. now constructor.
    Qed.
    Lemma map_J k (kvs : list (mapkey * value)) : Forall (fun kv => J (snd kv)) kvs -> Forall (fun x => ok_elem t (snd x) k = true) kvs -> Forall (fun x => jsafe (snd x) k) kvs ->
      exists q, map (fun e => (fst e, p_in (snd e))) q = kvs /\ Forall (fun e => p_back k (snd e)) q.
    Proof.
      induction kvs as [|[key v] vs IH]; intros HJ Hok Hs; [exists []; auto|]. inversion_clear HJ. inversion_clear Hs. inversion_clear Hok. cbn [snd] in *.
      destruct IH as (q & <- & Hq); auto.
      match goal with H : J v, H1 : jsafe v k, H2 : ok_elem t v k = true |- _ => destruct (H k H2 H1) as (j & v' & B) end.
      exists ((key, (v, j, v')) :: q). split; [reflexivity|]. now constructor.
    Qed.
    Lemma de_list_back k q : Forall (p_back k) q ->
      de_list (map (fun x b g' => de E t deny x b g') (map (carried E) (map p_json q))) false k = JOk (map p_out q).
    Proof.
      induction 1 as [|e q He Hq IH]; [reflexivity|]. cbn [map de_list]. rewrite (jb_de _ _ _ _ He). cbn [jbind]. rewrite IH. reflexivity.
    Qed.
    Lemma insert_new {A} k (v : A) l : ~ In k (map fst l) -> map_insert k v l = l ++ [(k, v)].
    Proof.
      induction l as [|[k' v'] l IH]; intros H; [reflexivity|]. cbn [map_insert map fst In app] in *. destruct (mk_eqb k k') eqn:Ek.
      - apply mk_eqb_eq in Ek. subst. exfalso. auto.
      - rewrite IH by auto. reflexivity.
    Qed.
    Lemma de_map_back kk vf q : field_goal vf = kind_goal (fd_kind vf) ->
      Forall (fun e => p_back (fd_kind vf) (snd e)) q -> Forall (fun e : mapkey * _ => mk_okb kk (fst e) = true) q -> NoDup (map fst q) ->
      forall acc, (forall k, In k (map fst acc) -> ~ In k (map fst q)) ->
      de_map (map (fun kv => (fst kv, fun b g' => de E t deny (snd kv) b g'))
        (map (fun kv => (fst kv, carried E (snd kv))) (map (fun e => (ser_key (fst e), p_json (snd e))) q))) false kk vf acc
      = JOk (acc ++ map (fun e => (fst e, p_out (snd e))) q).
    Proof.
      intros Hg. induction q as [|[k e] q IH]; intros Hq Hk Hn acc Hacc; [cbn; now rewrite app_nil_r|].
      inversion_clear Hq. inversion_clear Hk. cbn [map] in Hn. inversion_clear Hn. cbn [map de_map fst snd] in *. rewrite key_back by assumption. cbn [jbind].
      rewrite Hg. match goal with H : p_back _ e |- _ => rewrite (jb_de _ _ _ _ H) end. cbn [jbind].
      rewrite insert_new by (intros Hin; exact (Hacc _ Hin (or_introl eq_refl))).
      rewrite IH; auto; [now rewrite <- app_assoc|]. intros k' Hin. rewrite map_app, in_app_iff in Hin. destruct Hin as [Hin|[<-|[]]]; [|assumption].
      intros Hin'. exact (Hacc _ Hin (or_intror Hin')).
    Qed.
    Lemma map_get_on {A B} (g : A -> B) k (l : list (mapkey * A)) : map_get k (map (fun e => (fst e, g (snd e))) l) = option_map g (map_get k l).
    Proof. induction l as [|[k' v'] l IH]; [reflexivity|]. cbn [map map_get fst snd]. destruct (mk_eqb k k'); [reflexivity|exact IH]. Qed.
    Lemma nodup_keys {A} (l : list (mapkey * A)) : keys_nodupb l = true -> NoDup (map fst l).
    Proof.
      induction l as [|[k v] l IH]; [constructor|]. cbn [keys_nodupb map fst]. intros H. apply andb_true_iff in H. destruct H as [H1 H2].
      constructor; [|auto]. intros Hin. apply in_map_iff in Hin. destruct Hin as ([k' v'] & Ek & Hin). cbn in Ek. subst k'.
      apply negb_true_iff in H1. assert (X : existsb (fun x => mk_eqb k (fst x)) l = true); [|congruence].
      apply existsb_exists. exists (k, v'). split; [exact Hin|]. now apply mk_eqb_eq.
    Qed.

    Lemma field_back f v d : find_desc t d (fd_number f) = Some f -> J v -> inside v -> ok_field t f v = true -> jsafe v (fd_kind f) ->
      exists j v', fback f v j v'.
    Proof.
      intros Hf HJ Hin Hok Hs. destruct v as [b|z|z|n|n|n|n|s|s|z|m|vs|kvs].
      1-11: (rewrite ok_field_plain in Hok by reflexivity; rewrite !andb_true_iff, !negb_true_iff in Hok; destruct Hok as [[Hl Hm] Hok];
        destruct (HJ _ Hok Hs) as (j & v' & B); exists j, v';
        assert (Fg : field_goal f = kind_goal (fd_kind f)) by (unfold field_goal; now rewrite Hl, Hm); split;
        [exact (jb_ser _ _ _ _ B)
        |pose proof (jb_de _ _ _ _ B) as D; pose proof (jb_null _ _ _ _ B) as N;
         assert (Dec : carried E j = JNull \/ carried E j <> JNull) by (destruct (carried E j); auto; right; discriminate);
         destruct Dec as [En|En]; [rewrite En in *; cbn [de] in D |- *; rewrite (N eq_refl f eq_refl); exact D|rewrite (de_opt E t deny _ false f En), Fg; exact D]
        |exact (jb_agree _ _ _ _ B)
        |pose proof (jb_ok _ _ _ _ B) as O; pose proof (jb_agree _ _ _ _ B) as A; inversion A; subst; rewrite ok_field_plain by reflexivity; rewrite Hl, Hm; exact O]).
      - cbn [ok_field] in Hok. apply andb_true_iff in Hok. destruct Hok as [Hl Hok]. cbn [JsonRound.jsafe] in Hs. apply (and_all (fun x => jsafe x (fd_kind f))) in Hs.
        destruct (list_J (fd_kind f) vs Hin Hok Hs) as (q & <- & Hq). exists (JArr (map p_json q)), (VList (map p_out q)). split.
        + cbn [ser_value]. rewrite (jall_ok _ (map p_json q)); [reflexivity|]. clear -Hq. rewrite map_map. induction Hq as [|e q He Hq IH]; constructor; auto.
          exact (jb_ser _ _ _ _ He).
        + cbn [carried de target_goal]. unfold field_goal. rewrite Hl. cbn [de_arr]. rewrite (de_list_back _ _ Hq). reflexivity.
        + apply jagree_list. clear -Hq. induction Hq as [|e q He Hq IH]; constructor; auto. exact (jb_agree _ _ _ _ He).
        + cbn [ok_field]. rewrite Hl. cbn [andb]. clear -Hq. induction Hq as [|e q He Hq IH]; [reflexivity|]. cbn [map forallb]. rewrite (jb_ok _ _ _ _ He). exact IH.
      - pose proof Hok as Hok'. cbn [ok_field] in Hok. destruct (kind_msg (fd_kind f)) as [e|] eqn:Ek; [|discriminate]. destruct (fd_is_map f) eqn:Em; [|discriminate].
        destruct (entry_key t e) as [kf|] eqn:Ekf; [|discriminate]. destruct (entry_value t e) as [vf|] eqn:Evf; [|discriminate].
        apply andb_true_iff in Hok. destruct Hok as [Hnd Hok]. cbn [JsonRound.jsafe] in Hs. rewrite Ek, Evf in Hs. apply (and_all (fun kv => jsafe (snd kv) (fd_kind vf))) in Hs.
        assert (Hok1 : Forall (fun x => mk_okb (fd_kind kf) (fst x) = true) kvs).
        { apply Forall_forall. intros x Hx. rewrite forallb_forall in Hok. specialize (Hok x Hx). apply andb_true_iff in Hok. tauto. }
        assert (Hok2 : Forall (fun x => ok_elem t (snd x) (fd_kind vf) = true) kvs).
        { apply Forall_forall. intros x Hx. rewrite forallb_forall in Hok. specialize (Hok x Hx). apply andb_true_iff in Hok. tauto. }
        destruct (map_J (fd_kind vf) kvs Hin Hok2 Hs) as (q & <- & Hq).
        assert (Vg : field_goal vf = kind_goal (fd_kind vf)).
        { destruct (fs_map _ _ (find_desc_shape _ _ _ _ Hwf Hf) Em) as (e' & kf' & vf' & k0 & H1 & H2 & H3 & _ & _ & H6).
          rewrite Ek in H1. injection H1 as <-. rewrite Evf in H3. injection H3 as <-. unfold field_goal. rewrite (is_list_repeated _ H6).
          unfold entry_value in Evf. rewrite (get_field_map t Hwf _ _ _ Evf H6). reflexivity. }
        assert (Nd : NoDup (map fst q)) by (apply nodup_keys in Hnd; rewrite map_map in Hnd; exact Hnd).
        assert (Kq : Forall (fun e0 : mapkey * _ => mk_okb (fd_kind kf) (fst e0) = true) q).
        { clear -Hok1. rewrite Forall_map in Hok1. exact Hok1. }
        exists (JObj (map (fun e => (ser_key (fst e), p_json (snd e))) q)), (VMap (map (fun e => (fst e, p_out (snd e))) q)). split.
        + cbn [ser_value]. rewrite Ek, (map_entry_of _ _ _ _ _ Ht Hf Em Ek), Evf. rewrite (jall_ok _ (map (fun e => (ser_key (fst e), p_json (snd e))) q)); [reflexivity|].
          clear -Hq. rewrite map_map. induction Hq as [|e q He Hq IH]; constructor; auto. cbn [fst snd]. rewrite (jb_ser _ _ _ _ He). reflexivity.
        + cbn [carried de target_goal]. unfold field_goal. assert (El : fd_is_list f = false) by (unfold fd_is_list; rewrite Em; apply andb_false_r).
          rewrite El, Em. cbn [de_obj]. rewrite Ek, Ekf, Evf. rewrite (de_map_back (fd_kind kf) vf q Vg Hq Kq Nd []) by (intros k []). reflexivity.
        + apply jagree_map.
          * now rewrite !map_length.
          * intros k. rewrite !map_get_on. destruct (map_get k q); cbn; split; congruence.
          * intros k a b. rewrite !map_get_on. destruct (map_get k q) as [e'|] eqn:Eg; cbn; [|discriminate]. intros [= <-] [= <-].
            apply map_get_in in Eg. rewrite Forall_forall in Hq. exact (jb_agree _ _ _ _ (Hq _ Eg)).
        + cbn [ok_field]. rewrite Ek, Em, Ekf, Evf. apply andb_true_iff. split.
          * clear -Hnd. revert Hnd. induction q as [|[k e] q IH]; [reflexivity|]. cbn [map keys_nodupb fst snd]. intros H. apply andb_true_iff in H. destruct H as [H1 H2].
            apply andb_true_iff. split; [|auto]. rewrite <- H1. f_equal. clear. induction q as [|[k' e'] q IH]; [reflexivity|]. cbn. now rewrite IH.
          * clear -Hq Kq. induction Hq as [|e q He Hq IH]; [reflexivity|]. inversion_clear Kq. cbn [map forallb fst snd].
            match goal with H : mk_okb _ (fst e) = true |- _ => rewrite H end. rewrite (jb_ok _ _ _ _ He). cbn [andb]. now apply IH.
    Qed.

    (** ** Ordinary messages *)

    Record row := Row { r_ext : bool; r_fd : fdl; r_in : value; r_json : json; r_out : value }.
    Definition r_item (r : row) : item value := if r_ext r then IExt (r_fd r) (r_in r) else IField (r_fd r) (r_in r).
    Definition r_member (r : row) : str * json := (item_name o (r_ext r) (r_fd r), r_json r).
    Definition r_given (r : row) : fdl * value := (r_fd r, r_out r).
    Definition row_ok (d : nat) (fs : fieldset) (r : row) : Prop :=
      is_known t full d fs (r_item r) (r_fd r) (r_in r) /\ fback (r_fd r) (r_in r) (r_json r) (r_out r).

    Definition same_json (it : item jclosure) (it' : item value) : Prop :=
      match it, it' with
      | IField f vc, IField f' v | IExt f vc, IExt f' v => f = f' /\ snd vc (fd_kind f) = ser v (fd_kind f)
      | IUnk us, IUnk us' => us = us'
      | _, _ => False
      end.
    Lemma get_value_jslot fs k : fs_get_value (map (jslot E t o any) fs) k = option_map (fun v => (v, fun k' => ser v k')) (fs_get_value fs k).
    Proof.
      unfold fs_get_value. induction fs as [|[k' s] fs IH]; cbn [map bt_get]; [reflexivity|]. unfold jslot at 1. cbn [fst snd].
      destruct (k =? k'); [|exact IH]. destruct s; reflexivity.
    Qed.
    Lemma default_json d n f : get_field t d n = Some f -> fd_presence f = false ->
      ser_default E t o (fd_default_value t f) (fd_kind f) = ser (fd_default_value t f) (fd_kind f).
    Proof.
      intros Hf Hp. pose proof (get_field_ok _ _ _ _ Ht Hf) as Hfo.
      assert (Hfd : find_desc t d n = Some f) by (unfold find_desc; now rewrite Hf).
      unfold ser_default, fd_default_value. destruct (fd_is_list f) eqn:El; [reflexivity|]. destruct (fd_is_map f) eqn:Em.
      - destruct (fs_map _ _ (find_desc_shape _ _ _ _ Hwf Hfd) Em) as (e & kf & vf & k0 & H1 & H2 & H3 & _).
        cbn [ser_value ser_scalar]. rewrite H1, (map_entry_of _ _ _ _ _ Ht Hfd Em H1), H3. reflexivity.
      - assert (Hs : forall v, scalar v = true -> match ser_scalar E t o v (fd_kind f) with Some r => r
            | None => match v with VMessage _ => JPanic | VMap _ => JOk (JObj []) | _ => JOk (JArr []) end end = ser v (fd_kind f)).
        { intros v Hv. destruct v; try discriminate Hv; reflexivity. }
        destruct (fd_default f) as [v|] eqn:Ed.
        + apply Hs. pose proof (fo_default _ _ Hfo _ Ed) as Hok. destruct v; try reflexivity; destruct (fd_kind f); discriminate Hok.
        + apply Hs. destruct (fd_kind f) as [| | | | | | | | | | | | | | | i' | i' |] eqn:Ek; try reflexivity;
          (rewrite (fo_msg _ _ Hfo) in Hp; [discriminate|rewrite Ek; reflexivity|apply not_repeated; assumption]).
    Qed.
    Lemma iter_json d fs : Forall2 same_json
      (fs_iter_gen t fst (jclosure_default E t o) d full false (map (jslot E t o any) fs)) (fs_iter t d full false fs).
    Proof.
      unfold fs_iter, fs_iter_gen. apply Forall2_app.
      - unfold iter_declared. change (msg_fields t d) with (descs t false d).
        apply Forall2_flat_map with (P := eq).
        + induction (descs t false d); constructor; auto.
        + intros f f' Hin <-. rewrite get_value_jslot. destruct (fs_get_value fs (fd_number f)) as [v|]; cbn [option_map].
          * cbn [fst]. destruct (if full then _ else _); constructor; [|constructor]. cbn [same_json snd]. auto.
          * destruct (full && negb (fd_presence f)) eqn:Ef; constructor; [|constructor]. cbn [same_json snd jclosure_default].
            split; [reflexivity|]. apply (descs_get t Hwf false) in Hin.
            apply andb_true_iff in Ef. destruct Ef as [_ Ef]. apply negb_true_iff in Ef. eapply default_json; eassumption.
      - unfold iter_rest. apply Forall2_flat_map with (P := fun a b => a = jslot E t o any b).
        + clear. induction fs; constructor; auto.
        + intros a [k s] _ ->. unfold jslot. cbn [fst snd]. destruct s as [|v|us]; cbn [fst snd]; [constructor| |repeat constructor].
          destruct (get_ext t d k) as [x|]; [|constructor]. cbn [fst]. destruct (fd_has t x v); constructor; [|constructor]. cbn [same_json snd]. auto.
    Qed.
    Lemma items_json d fs its its' : Forall2 same_json its its' -> forall rows,
      map r_item rows = filter (fun it => negb (is_unknown it)) its' -> Forall (row_ok d fs) rows ->
      ser_items o its = JOk (map r_member rows).
    Proof.
      intros F. induction F as [|a b l l' Hab F IH]; intros rows Hr Hok.
      { destruct rows; [reflexivity|discriminate]. }
      destruct a as [f vc|f vc|us]; destruct b as [f' v|f' v|us']; cbn [same_json] in Hab; try contradiction;
        cbn [filter is_unknown negb] in Hr.
      - destruct Hab as (<- & Hs). destruct rows as [|r rows]; [discriminate|]. cbn [map] in Hr. injection Hr as Hr1 Hr2.
        inversion_clear Hok as [|? ? [Hk Hb] Hok']. cbn [ser_items map]. rewrite (IH rows Hr2 Hok'). rewrite Hs.
        unfold r_item in Hr1. destruct r as [[] rf rv rj ro]; cbn [r_ext r_fd r_in r_json r_out] in *; try discriminate. injection Hr1 as -> ->.
        rewrite (fb_ser _ _ _ _ Hb). reflexivity.
      - destruct Hab as (<- & Hs). destruct rows as [|r rows]; [discriminate|]. cbn [map] in Hr. injection Hr as Hr1 Hr2.
        inversion_clear Hok as [|? ? [Hk Hb] Hok']. cbn [ser_items map]. rewrite (IH rows Hr2 Hok'). rewrite Hs.
        unfold r_item in Hr1. destruct r as [[] rf rv rj ro]; cbn [r_ext r_fd r_in r_json r_out] in *; try discriminate. injection Hr1 as -> ->.
        rewrite (fb_ser _ _ _ _ Hb). reflexivity.
      - cbn [ser_items]. apply IH; assumption.
    Qed.
    Lemma rows_exist d fs its :
      (forall it, In it its -> exists f v, is_known t full d fs it f v /\ exists j v', fback f v j v') ->
      exists rows, map r_item rows = its /\ Forall (row_ok d fs) rows.
    Proof.
      induction its as [|it its IH]; intros H; [exists []; auto|].
      destruct IH as (rows & <- & Hr); [intros; apply H; now right|].
      destruct (H it (or_introl eq_refl)) as (f & v & K & j & v' & B).
      pose proof (ik_item _ _ _ _ _ _ _ K) as Ei. destruct it as [f0 v0|f0 v0|us]; try discriminate Ei; injection Ei as -> ->.
      - exists (Row false f v j v' :: rows). split; [reflexivity|]. constructor; [split; assumption|exact Hr].
      - exists (Row true f v j v' :: rows). split; [reflexivity|]. constructor; [split; assumption|exact Hr].
    Qed.
    Definition carry_member (kv : str * json) : str * json := (fst kv, carried E (snd kv)).
    Lemma rows_read d fs rows : Forall (row_ok d fs) rows -> oneofs_once (map r_given rows) -> forall m, msg_ok t m -> dm_desc m = d -> all_set m ->
      Forall (fun r => free m (r_fd r)) rows ->
      de_members t deny (readers E t deny (map carry_member (map r_member rows))) false m = JOk (assign m (map r_given rows)).
    Proof.
      induction rows as [|r rows IH]; intros Hok Ho m Hm Hd Ha Hf; [reflexivity|].
      inversion_clear Hok as [|? ? [Hk Hb] Hok']. cbn [map] in Ho. inversion_clear Ho as [|? ? O1 O2]. inversion_clear Hf as [|? ? F1 F2].
      cbn [map]. unfold carry_member at 1. unfold r_member at 1 2. cbn [fst snd]. rewrite members_step.
      assert (Mf : member_field t (dm_desc m) (item_name o (r_ext r) (r_fd r)) = Some (r_fd r)).
      { rewrite Hd. pose proof (ik_kind _ _ _ _ _ _ _ Hk) as K. unfold r_item in K. destruct (r_ext r); [eapply Hnamex|eapply Hname]; exact K. }
      pose proof (ik_desc _ _ _ _ _ _ _ Hk) as Fd. rewrite <- Hd in Fd.
      rewrite Mf, (fb_de _ _ _ _ Hb). cbn [jbind].
      destruct (put_field_good t Hwf m (r_fd r) (r_out r) Hm Fd (fb_ok _ _ _ _ Hb)) as [P1 P2]. rewrite P1. cbn [jbind].
      rewrite (proj2 (given_free t Hwf Hpres m (r_fd r) Fd Ha) F1).
      assert (Hn : de_members t deny (readers E t deny (map carry_member (map r_member rows))) false (set_extension m (r_fd r) (r_out r))
        = JOk (assign m (r_given r :: map r_given rows))).
      { assert (Ds : dm_desc (set_extension m (r_fd r) (r_out r)) = dm_desc m) by (destruct m; reflexivity).
        rewrite IH; auto.
        - now apply all_set_set.
        - apply Forall_forall. intros r2 Hin. rewrite Forall_forall in O1, F2, Hok'. destruct (Hok' r2 Hin) as [K2 _].
          pose proof (ik_desc _ _ _ _ _ _ _ K2) as Fd2. rewrite <- Hd in Fd2.
          apply (free_set t m (r_fd r) (r_out r) (r_fd r2) Fd Fd2 F1). split; [auto|]. intros Hs.
          apply (O1 (r_given r2)); [now apply in_map|]. cbn. apply (same_oneof_symm t Hwf (dm_desc m)); auto. }
      destruct (json_field t (dm_desc m) _); exact Hn.
    Qed.
    Lemma rows_once m rows : msg_ok t m -> Forall (row_ok (dm_desc m) (dm_fields m)) rows -> NoDup (map (fun r => fd_number (r_fd r)) rows) ->
      oneofs_once (map r_given rows).
    Proof.
      intros Hm. induction rows as [|r rows IH]; intros Hok Hn; [constructor|]. inversion_clear Hok as [|? ? [Hk _] Hok']. cbn [map] in *.
      inversion_clear Hn as [|? ? N1 N2]. constructor; [|now apply IH]. apply Forall_forall. intros g Hg. apply in_map_iff in Hg.
      destruct Hg as (r2 & <- & Hin). rewrite Forall_forall in Hok'. destruct (Hok' r2 Hin) as [K2 _]. cbn. intros (nums & Ho & Hi).
      apply (known_compat t Hwf full m _ _ _ _ _ _ (fun d n f nums Hf Hx => oneof_presence t d n f nums Ht Hpres Hf Hx) Hm Hk K2).
      exists nums. split; [exact Ho|]. split; [exact Hi|]. intros En. apply N1. apply in_map_iff. exists r2. auto.
    Qed.
    Lemma rows_last rows n : NoDup (map (fun r => fd_number (r_fd r)) rows) -> forall x,
      last_given n (map r_given rows) = Some x <-> exists r, In r rows /\ fd_number (r_fd r) = n /\ r_out r = x.
    Proof.
      induction rows as [|r rows IH]; intros Hn x; cbn [map last_given].
      - split; [discriminate|intros (r & [] & _)].
      - cbn [map] in Hn. inversion_clear Hn as [|? ? N1 N2]. specialize (IH N2). unfold r_given at 1. destruct (last_given n (map r_given rows)) as [y|].
        + destruct (proj1 (IH y) eq_refl) as (r0 & I1 & I2 & I3). split.
          * intros Hx. injection Hx as Hx. exists r0. split; [now right|]. split; congruence.
          * intros (r1 & [Hr|Hr] & I2' & I3'); [exfalso; apply N1; apply in_map_iff; exists r0; split; congruence|]. apply IH. exists r1. auto.
        + split.
          * destruct (fd_number (r_fd r) =? n) eqn:En; [|discriminate]. intros Hx. injection Hx as Hx. exists r. split; [now left|]. split; [now apply N.eqb_eq|exact Hx].
          * intros (r1 & [Hr|Hr] & I2' & I3'); [subst r1; now rewrite I2', N.eqb_refl, I3'|].
            exfalso. assert (X : @None value = Some x) by (apply IH; exists r1; auto). discriminate X.
    Qed.

    Definition shows (m : dynmsg) (f : fdl) : bool :=
      fs_has t f (dm_fields m) || full && negb (fd_presence f) && match get_field t (dm_desc m) (fd_number f) with Some _ => true | None => false end.
    Lemma jagree_rebuilt m m' : msg_ok t m -> dm_desc m' = dm_desc m ->
      (forall f, find_desc t (dm_desc m) (fd_number f) = Some f ->
         if shows m f then exists x, bt_get (fd_number f) (dm_fields m') = Some (SVal x) /\ jagree t (fs_get t f (dm_fields m)) x
         else bt_get (fd_number f) (dm_fields m') = None) ->
      (forall k v f, bt_get k (dm_fields m) = Some (SVal v) -> find_desc t (dm_desc m) k = Some f -> shown t full (dm_desc m) k v = true) ->
      jagree t (VMessage m) (VMessage m').
    Proof.
      intros Hm Hd Hg Hz.
      assert (St : forall f, find_desc t (dm_desc m) (fd_number f) = Some f -> ok_field t f (fs_get t f (dm_fields m)) = true).
      { intros f Hf. destruct m as [d fs]. eapply (stored_ok t Hwf); [exact Hm|exact Hf]. }
      assert (Nh : forall f, find_desc t (dm_desc m) (fd_number f) = Some f -> fs_has t f (dm_fields m) = false ->
        full && negb (fd_presence f) && match get_field t (dm_desc m) (fd_number f) with Some _ => true | None => false end = true ->
        fd_has t f (fs_get t f (dm_fields m)) = false).
      { intros f Hf Hh Hw. rewrite !andb_true_iff, negb_true_iff in Hw. destruct Hw as [[_ Hp] Hgf].
        assert (Eg : get_field t (dm_desc m) (fd_number f) = Some f).
        { unfold find_desc in Hf. destruct (get_field t (dm_desc m) (fd_number f)); [exact Hf|discriminate]. }
        unfold fs_has, fs_get in *. destruct (fs_get_value (dm_fields m) (fd_number f)); [exact Hh|].
        eapply default_not_set; eassumption. }
      apply jagree_message; [congruence| | |].
      - intros n f Hf. rewrite <- (find_desc_number _ _ _ _ Ht Hf) in Hf. specialize (Hg f Hf). unfold shows in Hg.
        unfold has_field. unfold fs_has at 2, fs_get_value. pose proof (find_desc_ok _ _ _ _ Ht Hf) as Hfo.
        destruct (fs_has t f (dm_fields m)) eqn:Eh; cbn [orb] in Hg.
        + destruct Hg as (x & -> & A). rewrite (proj1 (jagree_has _ _ _ _ Hfo (St f Hf) A)).
          unfold fs_has, fs_get in *. destruct (fs_get_value (dm_fields m) (fd_number f)); [symmetry; exact Eh|discriminate].
        + destruct (full && _ && _) eqn:Ew; [|now rewrite Hg]. destruct Hg as (x & -> & A). rewrite (proj1 (jagree_has _ _ _ _ Hfo (St f Hf) A)).
          symmetry. now apply Nh.
      - intros n f Hf. rewrite <- (find_desc_number _ _ _ _ Ht Hf) in Hf. specialize (Hg f Hf). unfold shows in Hg.
        unfold has_field, get_field_value. intros Eh. unfold fs_get at 2, fs_get_value.
        rewrite Eh in Hg. cbn [orb] in Hg. destruct Hg as (x & -> & A). exact A.
      - intros n f Hf. rewrite <- (find_desc_number _ _ _ _ Ht Hf) in Hf. pose proof (find_desc_ok _ _ _ _ Ht Hf) as Hfo.
        specialize (Hg f Hf). unfold shows in Hg.
        unfold has_field, get_field_value. intros Eh. unfold fs_get at 2, fs_get_value. rewrite Eh in Hg. cbn [orb] in Hg.
        destruct (full && negb (fd_presence f) && match get_field t (dm_desc m) (fd_number f) with Some _ => true | None => false end) eqn:Ew.
        + destruct Hg as (x & -> & A). symmetry. apply (jagree_has _ _ _ _ Hfo (St f Hf) A). now apply Nh.
        + rewrite Hg. pose proof (St f Hf) as Hok. unfold fs_has, fs_get, fs_get_value in *.
          destruct (bt_get (fd_number f) (dm_fields m)) as [[|v|us]|] eqn:Eb; try reflexivity.
          pose proof (Hz _ _ f Eb Hf) as Hs. unfold shown in Hs. rewrite Hf in Hs.
          apply omitted_default; auto; [|rewrite has_omitted in Eh; now apply negb_false_iff in Eh].
          apply orb_true_iff in Hs. destruct Hs as [Hs|Hs]; [exact Hs|].
          assert (Hp : fd_presence f = false) by (unfold fd_has in Eh; apply orb_false_iff in Eh; exact (proj1 Eh)).
          rewrite Hp in Ew. destruct (get_field t (dm_desc m) (fd_number f)); [|discriminate]. rewrite Hs in Ew. discriminate.
    Qed.

    Definition slots_safe (m : dynmsg) : Prop := forall k v f, bt_get k (dm_fields m) = Some (SVal v) -> find_desc t (dm_desc m) k = Some f ->
      shown t full (dm_desc m) k v = true /\ jsafe v (fd_kind f).
    Lemma known_back m it f v : msg_ok t m -> Forall (fun kv => slot_all (fun v => J v /\ inside v) (snd kv)) (dm_fields m) -> slots_safe m ->
      is_known t full (dm_desc m) (dm_fields m) it f v -> exists j v', fback f v j v'.
    Proof.
      intros Hm HI Hs K. pose proof (known_ok t Hwf full m it f v Hm K) as Hok. pose proof (ik_desc _ _ _ _ _ _ _ K) as Fd.
      pose proof (ik_val _ _ _ _ _ _ _ K) as Ev. unfold fs_get, fs_get_value in Ev.
      assert (Stored : forall x, bt_get (fd_number f) (dm_fields m) = Some (SVal x) -> v = x -> exists j v', fback f v j v').
      { intros x Eb ->. rewrite Forall_forall in HI. specialize (HI _ (bt_get_In _ _ _ Eb)). cbn in HI. destruct HI as [I1 I2].
        apply (field_back f x (dm_desc m)); auto. now apply (Hs _ _ _ Eb). }
      assert (Dflt : fs_has t f (dm_fields m) = false -> v = fd_default_value t f -> exists j v', fback f v j v').
      { intros Hh ->. destruct (ik_why _ _ _ _ _ _ _ K) as [W|(W1 & W2 & W3)]; [congruence|].
        pose proof (get_field_ok _ _ _ _ Ht W3) as Hfo.
        destruct (is_repeated f) eqn:Er.
        - assert (L : fd_default_value t f = VList [] \/ fd_default_value t f = VMap []).
          { unfold fd_default_value. destruct (fd_is_list f) eqn:El; [now left|]. destruct (fd_is_map f) eqn:Em; [now right|].
            rewrite not_repeated in Er by assumption. discriminate. }
          destruct L as [L|L]; rewrite L in *.
          + apply (field_back f (VList []) (dm_desc m)); auto; [intros k Hk; discriminate Hk|constructor|exact Logic.I].
          + apply (field_back f (VMap []) (dm_desc m)); auto; [intros k Hk; discriminate Hk|constructor|].
            cbn [JsonRound.jsafe map fold_right]. destruct (kind_msg (fd_kind f)); [|exact Logic.I]. destruct (entry_value t n); exact Logic.I.
        - assert (Sc : scalar (fd_default_value t f) = true).
          { unfold fd_default_value. rewrite (is_list_repeated _ Er), (get_field_map t Hwf _ _ _ W3 Er). destruct (fd_default f) as [v|] eqn:Ed.
            - pose proof (fo_default _ _ Hfo _ Ed) as Hsc. destruct v; try reflexivity; destruct (fd_kind f); discriminate Hsc.
            - destruct (fd_kind f) as [| | | | | | | | | | | | | | | i' | i' |] eqn:Ek; try reflexivity;
              (rewrite (fo_msg _ _ Hfo) in W2; [discriminate|rewrite Ek; reflexivity|exact Er]). }
          pose proof (Hdef W1 _ _ _ W3 W2 Er) as Hb.
          apply (field_back f (fd_default_value t f) (dm_desc m)); auto; [now apply scalar_J| |].
          + destruct (fd_default_value t f); try discriminate Sc; exact Logic.I.
          + destruct (fd_default_value t f); try discriminate Sc; exact Hb. }
      destruct (bt_get (fd_number f) (dm_fields m)) as [[|x|us]|] eqn:Eb.
      - apply Dflt; [unfold fs_has, fs_get_value; now rewrite Eb|now symmetry].
      - apply (Stored x eq_refl). now symmetry.
      - apply Dflt; [unfold fs_has, fs_get_value; now rewrite Eb|now symmetry].
      - apply Dflt; [unfold fs_has, fs_get_value; now rewrite Eb|now symmetry].
    Qed.

    Lemma fields_back m : msg_ok t m -> Forall (fun kv => slot_all (fun v => J v /\ inside v) (snd kv)) (dm_fields m) -> slots_safe m ->
      exists ms m', ser_fields E t o any m = JOk ms /\
        de_members t deny (readers E t deny (map carry_member ms)) false (new_msg (dm_desc m)) = JOk m' /\
        jagree t (VMessage m) (VMessage m') /\ ok_msg t m' = true /\ dm_desc m' = dm_desc m.
    Proof.
      intros Hm HI Hs. destruct (rows_exist (dm_desc m) (dm_fields m) (known t full false (dm_desc m) (dm_fields m))) as (rows & Er & Hr).
      { intros it Hin. destruct (known_inv t Hwf full false m it Hm Hin) as (f & v & K). exists f, v. split; [exact K|]. eapply known_back; eassumption. }
      assert (Nd : NoDup (map (fun r => fd_number (r_fd r)) rows)).
      { pose proof (known_nodup t Hwf full false m Hm) as N0. rewrite <- Er, map_map in N0. erewrite map_ext; [exact N0|].
        intros r. unfold r_item, knum. destruct (r_ext r); reflexivity. }
      pose proof (rows_once m rows Hm Hr Nd) as Once.
      assert (Fr : Forall (fun r => free (new_msg (dm_desc m)) (r_fd r)) rows) by (apply Forall_forall; intros r _ nums n _ _; reflexivity).
      assert (Nm : msg_ok t (new_msg (dm_desc m))) by (apply new_msg_ok; exact (mo_desc _ _ Hm)).
      destruct (assign_ok t Hwf (map r_given rows) (new_msg (dm_desc m)) Nm) as [A1 A2].
      { apply Forall_map. eapply Forall_impl; [|exact Hr]. intros r [K B]. split; [apply (ik_desc _ _ _ _ _ _ _ K)|apply (fb_ok _ _ _ _ B)]. }
      exists (map r_member rows), (assign (new_msg (dm_desc m)) (map r_given rows)). split; [|split; [|split; [|split]]].
      - unfold ser_fields. eapply items_json; [apply iter_json|exact Er|exact Hr].
      - apply (rows_read (dm_desc m) (dm_fields m)); auto. intros n s Hb. discriminate Hb.
      - apply jagree_rebuilt; auto.
        + intros f Hf.
          assert (Get : forall n, bt_get n (dm_fields (assign (new_msg (dm_desc m)) (map r_given rows))) = option_map SVal (last_given n (map r_given rows))).
          { intros n. rewrite (assign_get t Hwf (map r_given rows) Once (new_msg (dm_desc m))).
            - destruct (last_given n (map r_given rows)); reflexivity.
            - apply Forall_map. eapply Forall_impl; [|exact Hr]. intros r [K B]. apply (ik_desc _ _ _ _ _ _ _ K).
            - apply Forall_map. exact Fr. }
          rewrite Get. destruct (shows m f) eqn:Esh.
          * assert (W : fs_has t f (dm_fields m) = true \/ (full = true /\ fd_presence f = false /\ get_field t (dm_desc m) (fd_number f) = Some f)).
            { unfold shows in Esh. apply orb_true_iff in Esh. destruct Esh as [Eh|Eh]; [left; exact Eh|right]. rewrite !andb_true_iff, negb_true_iff in Eh.
              destruct Eh as [[E1 E2] E3]. split; [exact E1|]. split; [exact E2|]. unfold find_desc in Hf.
              destruct (get_field t (dm_desc m) (fd_number f)); [exact Hf|discriminate]. }
            destruct (known_intro t Hwf full false m f Hm Hf W) as (it & Hin & Ei). rewrite <- Er in Hin. apply in_map_iff in Hin.
            destruct Hin as (r & <- & Hin). rewrite Forall_forall in Hr. destruct (Hr r Hin) as [K B].
            assert (Efd : r_fd r = f /\ r_in r = fs_get t f (dm_fields m)).
            { unfold r_item in Ei. destruct (r_ext r); cbn in Ei; injection Ei; auto. }
            destruct Efd as [<- Ein]. exists (r_out r). split.
            -- assert (X : last_given (fd_number (r_fd r)) (map r_given rows) = Some (r_out r)); [|now rewrite X].
               apply rows_last; [exact Nd|]. exists r. auto.
            -- rewrite <- Ein. apply (fb_agree _ _ _ _ B).
          * destruct (last_given (fd_number f) (map r_given rows)) as [x|] eqn:El; [|reflexivity]. exfalso.
            apply rows_last in El; [|exact Nd]. destruct El as (r & Hin & En & _). rewrite Forall_forall in Hr. destruct (Hr r Hin) as [K B].
            pose proof (ik_desc _ _ _ _ _ _ _ K) as D. rewrite En, Hf in D. injection D as D. rewrite <- D in K. unfold shows in Esh.
            destruct (ik_why _ _ _ _ _ _ _ K) as [W|(W1 & W2 & W3)].
            -- rewrite W in Esh. discriminate.
            -- rewrite W1, W2, W3 in Esh. rewrite orb_true_r in Esh. discriminate.
        + intros k v f Hb Hf. now apply (Hs k v f).
      - now apply ok_msg_iff.
      - exact A2.
    Qed.

    Lemma carried_obj l : carried E (JObj l) = JObj (map carry_member l).
    Proof. reflexivity. Qed.
    Lemma safe_slots d fs k : msg_ok t (DM d fs) -> wkt_of t d = None -> jsafe (VMessage (DM d fs)) k -> slots_safe (DM d fs).
    Proof.
      intros Hm Hw Hs n v f Hb Hf. cbn [JsonRound.jsafe] in Hs. rewrite Hw in Hs.
      apply (and_all (fun kv : N * slot value => match snd kv with SVal v' => match find_desc t d (fst kv) with
        | Some f => shown t full d (fst kv) v' = true /\ jsafe v' (fd_kind f) | None => True end | _ => True end)) in Hs.
      rewrite Forall_forall in Hs. specialize (Hs _ (bt_get_In _ _ _ Hb)). cbn [fst snd dm_desc] in *. rewrite Hf in Hs. exact Hs.
    Qed.
    Lemma ser_ordinary m ms k : wkt_of t (dm_desc m) = None -> ser_fields E t o any m = JOk ms -> ser (VMessage m) k = JOk (JObj ms).
    Proof.
      destruct m as [d fs]. cbn [dm_desc]. intros Ew F1. cbn [ser_value]. rewrite Ew. unfold ser_fields in F1. cbn [dm_desc dm_fields] in F1.
      change (map (fun kv => (fst kv, match snd kv with SVal v' => SVal (v', fun k' => ser v' k') | Taken => Taken | SUnk us => SUnk us end)) fs)
        with (map (jslot E t o any) fs). rewrite F1. reflexivity.
    Qed.
    Lemma de_ordinary d ms m' : wkt_of t d = None -> de_members t deny (readers E t deny (map carry_member ms)) false (new_msg d) = JOk m' ->
      de E t deny (carried E (JObj ms)) false (TGoal (GMsg d)) = JOk (Some (VMessage m')).
    Proof. intros Ew F2. rewrite carried_obj. cbn [de target_goal de_obj]. rewrite Ew. unfold readers in F2. rewrite F2. reflexivity. Qed.
    Lemma message_back d fs k : ok_msg t (DM d fs) = true -> Forall (fun kv => slot_all (fun v => J v /\ inside v) (snd kv)) fs ->
      jsafe (VMessage (DM d fs)) k -> exists j m', mback (ser (VMessage (DM d fs)) k) (DM d fs) j m'.
    Proof.
      intros Hm HI Hs. pose proof (proj1 (ok_msg_iff _ _) Hm) as Hm'. destruct (wkt_of t d) as [w|] eqn:Ew.
      - assert (D : w = WAny \/ w <> WAny) by (destruct w; auto; right; discriminate). destruct D as [->|D].
        + cbn [ser_value JsonRound.jsafe] in *. rewrite Ew in *. cbn [ser_wkt]. apply Hany; auto.
        + cbn [ser_value]. rewrite Ew. apply wkt_back; auto. cbn [JsonRound.jsafe] in Hs. rewrite Ew in Hs. destruct w; try exact Hs. congruence.
      - pose proof (safe_slots d fs k Hm' Ew Hs) as Ss. destruct (fields_back (DM d fs) Hm' HI Ss) as (ms & m' & F1 & F2 & F3 & F4 & F5).
        exists (JObj ms), m'. split; auto.
        + apply ser_ordinary; auto.
        + apply de_ordinary; auto.
        + rewrite carried_obj. discriminate.
    Qed.
    Lemma value_back v : J v /\ inside v.
    Proof.
      induction v as [b|z|z|n|n|n|n|s|s|z|d fs IH|vs IH|kvs IH] using value_ind'; try (split; [apply scalar_J; reflexivity|exact Logic.I]).
      - split; [|exact Logic.I]. intros k Hok Hs. rewrite ok_elem_msg in Hok. destruct (kind_msg k) as [i|] eqn:Ek; [|discriminate].
        apply andb_true_iff in Hok. destruct Hok as [Hi Hok]. cbn [dm_desc] in Hi. apply Nat.eqb_eq in Hi. subst i.
        destruct (message_back d fs k Hok IH Hs) as (j & m' & B). exists j, (VMessage m'). split.
        + apply (mb_ser _ _ _ _ B).
        + unfold kind_goal. rewrite Ek. apply (mb_de _ _ _ _ B).
        + apply (mb_agree _ _ _ _ B).
        + rewrite ok_elem_msg, Ek, (mb_ok _ _ _ _ B), (mb_desc _ _ _ _ B). cbn [dm_desc]. now rewrite Nat.eqb_refl.
        + intros Hn f Hf. pose proof (mb_null _ _ _ _ B Hn) as Hv. cbn [dm_desc] in Hv. unfold null_field. rewrite Hf, Ek.
          pose proof Hv as Hv'. unfold wkt_of in Hv'. apply wkt_value_name in Hv'. rewrite Hv', bytes_eqb_refl. unfold kind_goal. rewrite Ek. cbn [de_atom]. rewrite Hv. reflexivity.
      - split; [intros k Hk; discriminate Hk|]. cbn. eapply Forall_impl; [|exact IH]. intros a [H _]. exact H.
      - split; [intros k Hk; discriminate Hk|]. cbn. eapply Forall_impl; [|exact IH]. intros a [H _]. exact H.
    Qed.
    Lemma msg_back m : ok_msg t m = true -> jsafe (VMessage m) (KMessage (dm_desc m)) -> exists j m', mback (ser (VMessage m) (KMessage (dm_desc m))) m j m'.
    Proof.
      destruct m as [d fs]. intros Hm Hs. apply message_back; auto. apply Forall_forall. intros [k [|v|us]] _; cbn; auto. apply value_back.
    Qed.
    Lemma ordinary_back m : ok_msg t m = true -> wkt_of t (dm_desc m) = None -> jsafe (VMessage m) (KMessage (dm_desc m)) ->
      exists ms m', ser_fields E t o any m = JOk ms /\
        de_members t deny (readers E t deny (map carry_member ms)) false (new_msg (dm_desc m)) = JOk m' /\
        jagree t (VMessage m) (VMessage m') /\ ok_msg t m' = true /\ dm_desc m' = dm_desc m.
    Proof.
      intros Hm Ew Hs. pose proof (proj1 (ok_msg_iff _ _) Hm) as Hm'. apply fields_back; auto.
      - apply Forall_forall. intros [k [|v|us]] _; cbn; auto. apply value_back.
      - destruct m as [d fs]. exact (safe_slots d fs _ Hm' Ew Hs).
    Qed.
  End Any.

  (** ** google.protobuf.Any *)

  Lemma bytes_field f b : ok_field t f (VBytes b) = true -> bytes_ok b.
  Proof.
    rewrite ok_field_plain by reflexivity. rewrite !andb_true_iff. intros [_ H]. cbn [ok_elem] in H.
    destruct (fd_kind f); try discriminate H. now apply bytes_okb_ok.
  Qed.
  Lemma string_field f s : ok_field t f (VString s) = true -> bytes_okb s = true /\ utf8_valid s = true.
  Proof.
    rewrite ok_field_plain by reflexivity. rewrite !andb_true_iff. intros [_ H]. cbn [ok_elem] in H.
    destruct (fd_kind f); try discriminate H. apply andb_true_iff in H. exact H.
  Qed.
  Definition any_of (url b : bytes) : dynmsg := DM 0 [(1, SVal (VString url)); (2, SVal (VBytes b))].
  Lemma any_of_ok url b : bytes_okb url = true -> utf8_valid url = true -> bytes_ok b -> ok_msg wkt_tables (any_of url b) = true.
  Proof.
    intros U1 U2 Bb. unfold ok_msg, any_of. cbn [dm_desc dm_fields forallb]. unfold ok_slot.
    apply bytes_okb_ok in Bb. cbn. rewrite U1, U2, Bb. reflexivity.
  Qed.
  Lemma any_of_get url b : exists g1 g2, get_field wkt_tables 0 1 = Some g1 /\ get_field wkt_tables 0 2 = Some g2 /\
    get_field_value wkt_tables (any_of url b) g1 = VString url /\ get_field_value wkt_tables (any_of url b) g2 = VBytes b.
  Proof.
    destruct (get_field wkt_tables 0 1) as [g1|] eqn:E1; [|vm_compute in E1; discriminate E1].
    destruct (get_field wkt_tables 0 2) as [g2|] eqn:E2; [|vm_compute in E2; discriminate E2].
    exists g1, g2. split; [reflexivity|]. split; [reflexivity|]. vm_compute in E1. injection E1 as <-. vm_compute in E2. injection E2 as <-. split; reflexivity.
  Qed.
  Lemma zero_string f s : zero_kept t f (VString s) = true.
  Proof. unfold zero_kept. destruct (fd_default_value t f); apply orb_true_r. Qed.
  Lemma zero_bytes f s : zero_kept t f (VBytes s) = true.
  Proof. unfold zero_kept. destruct (fd_default_value t f); apply orb_true_r. Qed.
  Lemma in_order_nil {A} : in_order E (@nil (str * A)) = [].
  Proof. unfold in_order. induction (jx_order E (map fst [])) as [|k l IHl]; [reflexivity|exact IHl]. Qed.

  Lemma any_back n : forall m, wkt_of t (dm_desc m) = Some WAny -> ok_msg t m = true -> any_safe E t o deny n m ->
    exists j m', mback (ser_any E t o n m) m j m'.
  Proof.
    induction n as [|n IH]; intros m Hw Hm Hs; [contradiction|].
    cbn [any_safe] in Hs. destruct Hs as (Hdp & Hbk & f1 & f2 & url & b & name & d & x & G1 & G2 & V1 & V2 & Hu & Hfm & Hx & Hsafe & Hlen).
    pose proof (proj1 (ok_msg_iff _ _) Hm) as Hm'. pose proof (Hstd _ _ Hw) as Hst. cbn [wkt_desc] in Hst.
    assert (D1 : find_desc t (dm_desc m) 1 = Some f1) by (unfold find_desc; now rewrite G1).
    assert (D2 : find_desc t (dm_desc m) 2 = Some f2) by (unfold find_desc; now rewrite G2).
    assert (O : forall k f, find_desc t (dm_desc m) k = Some f -> ok_field t f (get_field_value t m f) = true).
    { intros k f Hf. rewrite <- (find_desc_number _ _ _ _ Ht Hf) in Hf. destruct m as [dm fs]. eapply (stored_ok t Hwf); [exact Hm'|exact Hf]. }
    pose proof (O _ _ D1) as O1. pose proof (O _ _ D2) as O2. rewrite V1 in O1. rewrite V2 in O2.
    apply string_field in O1. destruct O1 as [U1 U2]. apply bytes_field in O2.
    destruct (typed t m (dm_desc m) 0 Hwf Hst Hm eq_refl Hdp (bulk_fits t Hwf m Hm Hbk)) as (x0 & T & _ & _ & Tg).
    assert (T1 : typed_get x0 1 = VString url).
    { rewrite <- V1. apply (Tg 1 f1 G1); rewrite V1; [reflexivity|apply zero_string]. }
    assert (T2 : typed_get x0 2 = VBytes b).
    { rewrite <- V2. apply (Tg 2 f2 G2); rewrite V2; [reflexivity|apply zero_bytes]. }
    pose proof (find_msg_full _ _ _ Hfm) as Hfn. pose proof (find_msg_lt _ _ _ Hfm) as Hd.
    assert (Wk : wkt_of t d = wkt_named name) by (unfold wkt_of; now rewrite Hfn).
    pose proof (C04_decode_total t d b Hwf Hd O2) as Dec. rewrite Hx in Dec. destruct Dec as [Ox Dx].
    assert (Made : forall x', jagree t (VMessage x) (VMessage x') -> ok_msg t x' = true ->
      (forall b', enc_msg t x' = Ok b' -> 60 + N.of_nat (length url) + N.of_nat (length b') < 2 ^ 64) ->
      exists b' m', enc_msg t x' = Ok b' /\ make_message t (dm_desc m) (any_of url b') = JOk (Some (VMessage m')) /\
        jagree t (VMessage m) (VMessage m') /\ ok_msg t m' = true /\ dm_desc m' = dm_desc m).
    { intros x' A Ox' Hl. destruct (ok_msg_enc t x' Hwf Ox') as (b' & Eb & Bb). specialize (Hl b' Eb). exists b'.
      pose proof (any_of_ok url b' U1 U2 Bb) as Oa.
      assert (Bk : bulk_msg (any_of url b') < 2 ^ 64).
      { unfold bulk_msg, any_of, sumN. cbn [dm_fields map fold_right snd bulk_slot bulk].
        eapply N.le_lt_trans; [|exact Hl]. clear. generalize (N.of_nat (length url)) (N.of_nat (length b')). intros p q. lia. }
      destruct (made t (dm_desc m) 0 (any_of url b') Hwf Hst Oa eq_refl) as (m' & M1 & M2 & M3 & _ & Mg).
      { cbn. lia. }
      { apply bulk_fits; [exact wkt_wf|exact Oa|exact Bk]. }
      exists m'. split; [exact Eb|]. split; [exact M1|]. split; [|split; assumption].
      destruct (any_of_get url b') as (g1 & g2 & Q1 & Q2 & Q3 & Q4).
      assert (W1 : get_field_value t m' f1 = VString url).
      { rewrite <- Q3. apply (proj2 (Mg 1 g1 f1 Q1 G1)); rewrite Q3; [reflexivity|]. unfold zero_kept. destruct (fd_default_value wkt_tables g1); apply orb_true_r. }
      assert (W2 : get_field_value t m' f2 = VBytes b').
      { rewrite <- Q4. apply (proj2 (Mg 2 g2 f2 Q2 G2)); rewrite Q4; [reflexivity|]. unfold zero_kept. destruct (fd_default_value wkt_tables g2); apply orb_true_r. }
      apply (jagree_any t m m' f1 f2 url name d b b' x x'); auto. apply wkt_any_name. exact Hw. }
    cbn [ser_any]. rewrite T. cbn [jbind]. rewrite T1, T2. cbn [val_bytes]. rewrite Hu, Hfm, Hx. cbn [jdec jbind].
    rewrite <- Dx in Hsafe. destruct (wkt_named name) as [w|] eqn:En.
    - destruct (msg_back (ser_any E t o n) (any_safe E t o deny n) IH x Ox Hsafe) as (j & x' & B). rewrite Dx in B.
      destruct (Made x') as (b' & m' & E1 & E2 & E3 & E4 & E5).
      { apply (mb_agree _ _ _ _ B). } { apply (mb_ok _ _ _ _ B). }
      { intros b' Eb. apply (Hlen j x' b'); [apply (mb_ser _ _ _ _ B)| |exact Eb]. pose proof (mb_de _ _ _ _ B) as Q. rewrite Dx in Q. exact Q. }
      pose proof (mb_de _ _ _ _ B) as Q. rewrite Dx in Q.
      exists (JObj [(s2b "@type", JStr url); (s2b "value", j)]), m'. split; auto.
      + rewrite (mb_ser _ _ _ _ B). reflexivity.
      + rewrite carried_obj. cbn [map carry_member fst snd]. cbn [de target_goal de_obj map]. rewrite Hw. unfold de_any. cbn [find_member fst snd].
        rewrite bytes_eqb_refl. cbn [carry_member carried de target_goal de_atom jbind fst snd]. cbn [val_bytes]. rewrite Hu, Hfm.
        unfold any_payload. rewrite En. cbn [assoc_s find_member]. rewrite bytes_eqb_refl. cbn [snd carry_member]. rewrite Q. cbn [jbind].
        rewrite in_order_nil. cbn [app]. replace (if deny then JOk x' else JOk x') with (JOk x') by (destruct deny; reflexivity). cbn [jbind].
        rewrite E1. cbn [jdec jbind]. exact E2.
      + rewrite carried_obj. discriminate.
    - rewrite <- Dx in Wk. destruct (ordinary_back (ser_any E t o n) (any_safe E t o deny n) IH x Ox Wk Hsafe) as (ms & x' & S1 & S2 & S3 & S4 & S5).
      destruct (Made x') as (b' & m' & E1 & E2 & E3 & E4 & E5); auto.
      { intros b' Eb. apply (Hlen (JObj ms) x' b'); [apply ser_ordinary; assumption| |exact Eb]. rewrite <- Dx. apply de_ordinary; assumption. }
      exists (JObj ((s2b "@type", JStr url) :: ms)), m'. split; auto.
      + rewrite S1. reflexivity.
      + rewrite carried_obj. cbn [map carry_member fst snd]. cbn [de target_goal de_obj map]. rewrite Hw. unfold de_any. cbn [find_member fst snd].
        rewrite bytes_eqb_refl. cbn [carry_member carried de target_goal de_atom jbind fst snd]. cbn [val_bytes]. rewrite Hu, Hfm.
        unfold any_payload. rewrite En, in_order_nil. cbn [de_members jbind]. rewrite Dx in S2. unfold readers in S2. rewrite S2. cbn [jbind].
        rewrite E1. cbn [jdec jbind]. exact E2.
      + rewrite carried_obj. discriminate.
  Qed.

  Theorem json_back n m : ok_msg t m = true ->
    jsafe E t full (any_safe E t o deny n) (VMessage m) (KMessage (dm_desc m)) ->
    exists j m', to_json E t o n m = JOk j /\ from_json E t deny (dm_desc m) (carried E j) = JOk m' /\
      jagree t (VMessage m) (VMessage m') /\ ok_msg t m' = true /\ dm_desc m' = dm_desc m.
  Proof.
    intros Hm Hs. destruct (msg_back (ser_any E t o n) (any_safe E t o deny n) (any_back n) m Hm Hs) as (j & m' & B). exists j, m'.
    split; [apply (mb_ser _ _ _ _ B)|]. split; [unfold from_json; rewrite (mb_de _ _ _ _ B); reflexivity|].
    split; [apply (mb_agree _ _ _ _ B)|]. split; [apply (mb_ok _ _ _ _ B)|apply (mb_desc _ _ _ _ B)].
  Qed.
End Round.
