(** The fields a printer walks through, and the message rebuilt from them:
    shared by the text format and by JSON. *)
From Verif Require Import Base BaseProofs Wire WireProofs LoopProofs Unknown UnknownProofs
  Value Descr Fields Codec DescrOk DescrProofs FieldsProofs LenProofs MergeProofs RoundSpec RoundProofs
  RoundMain RoundSame.
Open Scope N_scope.

(** [agree t v v']: like [same], but unknown fields are not compared.  The text
    format and JSON do not carry them. *)
Inductive agree (t : tables) : value -> value -> Prop :=
| agree_scalar v : scalar v = true -> agree t v v
| agree_list l l' : Forall2 (agree t) l l' -> agree t (VList l) (VList l')
| agree_map l l' :
    length l = length l' ->
    (forall k, map_get k l = None <-> map_get k l' = None) ->
    (forall k a b, map_get k l = Some a -> map_get k l' = Some b -> agree t a b) ->
    agree t (VMap l) (VMap l')
| agree_message m m' :
    dm_desc m = dm_desc m' ->
    (forall n f, find_desc t (dm_desc m) n = Some f -> has_field t m f = has_field t m' f) ->
    (forall n f, find_desc t (dm_desc m) n = Some f -> has_field t m f = true ->
       agree t (get_field_value t m f) (get_field_value t m' f)) ->
    (forall n f, find_desc t (dm_desc m) n = Some f -> has_field t m f = false ->
       get_field_value t m f = get_field_value t m' f) ->
    agree t (VMessage m) (VMessage m').
Definition agree_msg (t : tables) (m m' : dynmsg) : Prop := agree t (VMessage m) (VMessage m').

Definition is_unknown {V} (it : item V) : bool := match it with IUnk _ => true | _ => false end.

(** What a printer that shows only set fields loses: the sign of a zero that is
    == to its field's default (see RoundSpec.zero_kept); with [full] declared
    fields are always shown. *)
Definition shown (t : tables) (full : bool) (d : nat) (n : N) (v : value) : bool :=
  match find_desc t d n with
  | Some f => zero_kept t f v || match get_field t d n with Some _ => full | None => false end
  | None => true
  end.
Fixpoint zeros_shown (t : tables) (full : bool) (v : value) : bool :=
  match v with
  | VMessage (DM d fs) =>
      forallb (fun kv => match snd kv with
                         | SVal v' => shown t full d (fst kv) v' && zeros_shown t full v'
                         | _ => true
                         end) fs
  | VList vs => forallb (zeros_shown t full) vs
  | VMap kvs => forallb (fun kv => zeros_shown t full (snd kv)) kvs
  | _ => true
  end.

Section Items.
  Variable t : tables.
  Hypothesis Hwf : wf t.
  Let Ht : tables_ok t := proj1 Hwf.
  Variables full idx : bool.

  (** the known fields that are printed *)
  Definition known (d : nat) (fs : fieldset) : list (item value) :=
    filter (fun it => negb (is_unknown it)) (fs_iter t d full idx fs).

  Definition fitem (it : item value) : option (fdl * value) :=
    match it with IField f v | IExt f v => Some (f, v) | IUnk _ => None end.

  (** one printed field *)
  Record is_known (d : nat) (fs : fieldset) (it : item value) (f : fdl) (v : value) : Prop := {
    ik_item : fitem it = Some (f, v);
    ik_desc : find_desc t d (fd_number f) = Some f;
    ik_kind : match it with IField _ _ => get_field t d (fd_number f) = Some f
                          | IExt _ _ => get_ext t d (fd_number f) = Some f
                          | IUnk _ => False end;
    ik_val : fs_get t f fs = v;
    ik_why : fs_has t f fs = true \/ (full = true /\ fd_presence f = false /\ get_field t d (fd_number f) = Some f)
  }.

  Lemma index_nodup d : NoDup (map fd_number (msg_fields_index t d)).
  Proof.
    unfold msg_fields_index. destruct (nth_error (t_messages t) d) as [m|] eqn:Em; [|constructor].
    pose proof (fun i fi => get_field_at t d m i fi Ht Em) as G.
    assert (B : forall i j fi fj, nth_error (m_fields m) i = Some fi -> nth_error (m_fields m) j = Some fj ->
      f_number fi = f_number fj -> i = j).
    { intros i j fi fj Hi Hj E. pose proof (tables_ok_msg _ _ _ Ht Em) as Hm. unfold msg_okb in Hm.
      rewrite !andb_true_iff in Hm. destruct Hm as [[[[[[_ _] Hm] _] _] _] _]. rewrite forallb_i_nth in Hm.
      pose proof (Hm _ _ Hi) as Hmi. pose proof (Hm _ _ Hj) as Hmj. rewrite !andb_true_iff in Hmi, Hmj.
      destruct Hmi as [[[[Hmi _] _] _] _]. destruct Hmj as [[[[Hmj _] _] _] _].
      apply nat_opt_eqb_eq in Hmi. apply nat_opt_eqb_eq in Hmj. congruence. }
    rewrite map_map. rewrite NoDup_nth_error. intros i j Hi E.
    rewrite map_length in Hi. destruct (nth_error (m_fields m) i) as [fi|] eqn:Ei; [|apply nth_error_None in Ei; lia].
    rewrite (map_nth_error _ _ _ Ei) in E. symmetry in E.
    destruct (nth_error (m_fields m) j) as [fj|] eqn:Ej.
    - rewrite (map_nth_error _ _ _ Ej) in E. injection E as E. eapply B; eauto.
    - apply nth_error_None in Ej. assert (nth_error (map (fun x => fd_number (field_view t m x)) (m_fields m)) j = None) as Hn
        by (apply nth_error_None; rewrite map_length; exact Ej). rewrite Hn in E. discriminate.
  Qed.

  Definition descs (d : nat) : list fdl := if idx then msg_fields_index t d else msg_fields t d.
  Lemma descs_get d f : In f (descs d) <-> get_field t d (fd_number f) = Some f.
  Proof. unfold descs. destruct idx; [apply msg_fields_index_get, Ht|apply msg_fields_get, Ht]. Qed.
  Lemma descs_nodup d : NoDup (map fd_number (descs d)).
  Proof. unfold descs. destruct idx; [apply index_nodup|apply msg_fields_nodup, Ht]. Qed.

  Lemma declared_inv fs l it : In it (iter_declared t (fun v => v) (fd_default_value t) full l fs) ->
    exists f, In f l /\ it = IField f (fs_get t f fs) /\ (fs_has t f fs = true \/ full = true /\ fd_presence f = false).
  Proof.
    unfold iter_declared. intros H. apply in_flat_map in H. destruct H as (f & Hin & H). exists f. split; [exact Hin|].
    unfold fs_get, fs_has. destruct (fs_get_value fs (fd_number f)) as [v|].
    - destruct full.
      + destruct (negb (fd_presence f) || fd_has t f v) eqn:E; [|contradiction]. destruct H as [<-|[]]. split; [reflexivity|].
        apply orb_true_iff in E. destruct E as [E|E]; [right; split; [reflexivity|now apply negb_true_iff]|left; exact E].
      + destruct (fd_has t f v) eqn:E; [|contradiction]. destruct H as [<-|[]]. auto.
    - destruct (full && negb (fd_presence f)) eqn:E; [|contradiction]. destruct H as [<-|[]]. split; [reflexivity|].
      right. apply andb_true_iff in E. destruct E as [E1 E2]. split; [exact E1|now apply negb_true_iff].
  Qed.
  Lemma declared_intro fs l f : In f l -> fs_has t f fs = true \/ full = true /\ fd_presence f = false ->
    In (IField f (fs_get t f fs)) (iter_declared t (fun v => v) (fd_default_value t) full l fs).
  Proof.
    intros Hin Hw. unfold iter_declared. apply in_flat_map. exists f. split; [exact Hin|].
    unfold fs_get, fs_has in *. destruct (fs_get_value fs (fd_number f)) as [v|].
    - destruct Hw as [Hw|[-> ->]]; [rewrite Hw, orb_true_r; destruct full; left; reflexivity|left; reflexivity].
    - destruct Hw as [Hw|[-> ->]]; [discriminate|left; reflexivity].
  Qed.

  Lemma known_inv m it : msg_ok t m -> In it (known (dm_desc m) (dm_fields m)) ->
    exists f v, is_known (dm_desc m) (dm_fields m) it f v.
  Proof.
    intros Hm Hin. unfold known in Hin. apply filter_In in Hin. destruct Hin as [Hin Hk].
    unfold fs_iter, fs_iter_gen in Hin. apply in_app_iff in Hin. destruct Hin as [Hin|Hin].
    - apply declared_inv in Hin. destruct Hin as (f & Hf & -> & Hw). fold (descs (dm_desc m)) in Hf. apply descs_get in Hf.
      exists f, (fs_get t f (dm_fields m)). split; auto.
      + unfold find_desc. rewrite Hf. reflexivity.
      + destruct Hw as [Hw|[H1 H2]]; auto.
    - unfold iter_rest in Hin. apply in_flat_map in Hin. destruct Hin as ([k s] & Hks & Hin). cbn [fst snd] in Hin.
      destruct s as [|v|us]; [contradiction| |destruct Hin as [<-|[]]; discriminate].
      destruct (get_ext t (dm_desc m) k) as [f|] eqn:Ef; [|contradiction].
      destruct (fd_has t f v) eqn:Eh; [|contradiction]. destruct Hin as [<-|[]].
      pose proof (get_ext_number _ _ _ _ Ht Ef) as En. subst k.
      apply (bt_In_get _ _ _ (mo_sorted _ _ Hm)) in Hks.
      exists f, v. split; auto.
      + unfold find_desc. rewrite (field_ext_disjoint _ _ _ _ Hwf Ef). exact Ef.
      + unfold fs_get, fs_get_value. rewrite Hks. reflexivity.
      + left. unfold fs_has, fs_get_value. rewrite Hks. exact Eh.
  Qed.
  Lemma known_intro m f : msg_ok t m -> find_desc t (dm_desc m) (fd_number f) = Some f ->
    fs_has t f (dm_fields m) = true \/ (full = true /\ fd_presence f = false /\ get_field t (dm_desc m) (fd_number f) = Some f) ->
    exists it, In it (known (dm_desc m) (dm_fields m)) /\ fitem it = Some (f, fs_get t f (dm_fields m)).
  Proof.
    intros Hm Hf Hw. unfold known, fs_iter, fs_iter_gen. fold (descs (dm_desc m)).
    destruct (get_field t (dm_desc m) (fd_number f)) as [g|] eqn:Eg.
    - unfold find_desc in Hf. rewrite Eg in Hf. injection Hf as ->.
      exists (IField f (fs_get t f (dm_fields m))). split; [|reflexivity]. apply filter_In. split; [|reflexivity].
      apply in_app_iff. left. apply declared_intro; [apply descs_get, Eg|].
      destruct Hw as [Hw|(H1 & H2 & _)]; auto.
    - unfold find_desc in Hf. rewrite Eg in Hf. destruct Hw as [Hw|(_ & _ & Hw)]; [|discriminate].
      exists (IExt f (fs_get t f (dm_fields m))). split; [|reflexivity]. apply filter_In. split; [|reflexivity].
      apply in_app_iff. right. unfold iter_rest. apply in_flat_map.
      unfold fs_has, fs_get, fs_get_value in *. destruct (bt_get (fd_number f) (dm_fields m)) as [[|v|us]|] eqn:Eb; try discriminate.
      exists (fd_number f, SVal v). split; [apply bt_get_In, Eb|]. cbn [fst snd]. rewrite Hf, Hw. left. reflexivity.
  Qed.

  Definition knum (it : item value) : N := match fitem it with Some (f, _) => fd_number f | None => 0 end.
  Lemma nodup_filter_flat {A} (g : A -> list (item value)) (num : A -> N) l :
    NoDup (map num l) -> (forall a, (length (g a) <= 1)%nat) ->
    (forall a it, In a l -> In it (g a) -> is_unknown it = false -> knum it = num a) ->
    NoDup (map knum (filter (fun it => negb (is_unknown it)) (flat_map g l))).
  Proof.
    intros Hn Hl Hg. induction l as [|a l IH]; cbn [flat_map map]; [constructor|].
    cbn in Hn. inversion_clear Hn as [|? ? Hni Hn'].
    assert (IH' : NoDup (map knum (filter (fun it => negb (is_unknown it)) (flat_map g l)))).
    { apply IH; [exact Hn'|]. intros b it Hb. apply Hg. right; exact Hb. }
    pose proof (Hl a) as L. pose proof (fun it => Hg a it (or_introl eq_refl)) as G.
    destruct (g a) as [|x [|? ?]]; cbn in *; auto; [|lia].
    destruct (is_unknown x) eqn:Ex; cbn [negb]; [exact IH'|]. cbn [map].
    constructor; [|exact IH']. rewrite (G x (or_introl eq_refl) Ex). intros Hin.
    apply in_map_iff in Hin. destruct Hin as (it & Eit & Hin). apply filter_In in Hin. destruct Hin as [Hin Hu].
    apply in_flat_map in Hin. destruct Hin as (b & Hb & Hit). apply negb_true_iff in Hu.
    apply Hni. rewrite <- Eit, (Hg b it (or_intror Hb) Hit Hu). apply in_map, Hb.
  Qed.
  Lemma filter_app' {A} (p : A -> bool) a b : filter p (a ++ b) = filter p a ++ filter p b.
  Proof. induction a as [|x a IH]; cbn; [reflexivity|]. destruct (p x); cbn; now rewrite IH. Qed.

  Lemma known_nodup m : msg_ok t m -> NoDup (map knum (known (dm_desc m) (dm_fields m))).
  Proof.
    intros Hm. unfold known, fs_iter, fs_iter_gen. fold (descs (dm_desc m)). rewrite filter_app', map_app. apply NoDup_app'.
    - apply nodup_filter_flat with (num := fd_number).
      + apply descs_nodup.
      + intros f. destruct (fs_get_value (dm_fields m) (fd_number f)).
        * destruct (if full then _ else _); cbn; lia.
        * destruct (full && negb (fd_presence f)); cbn; lia.
      + intros f it _ Hin _. destruct (fs_get_value (dm_fields m) (fd_number f)).
        * destruct (if full then _ else _); [|contradiction]. destruct Hin as [<-|[]]. reflexivity.
        * destruct (full && negb (fd_presence f)); [|contradiction]. destruct Hin as [<-|[]]. reflexivity.
    - apply nodup_filter_flat with (num := fst).
      + apply bt_sorted_nodup, (mo_sorted _ _ Hm).
      + intros [k s]. cbn. destruct s; cbn; try lia. destruct (get_ext t (dm_desc m) k); cbn; [|lia].
        destruct (fd_has t f v); cbn; lia.
      + intros [k s] it Hk Hin Hu. cbn in *. destruct s; [contradiction| |destruct Hin as [<-|[]]; discriminate].
        destruct (get_ext t (dm_desc m) k) as [x|] eqn:Ex; [|contradiction].
        destruct (fd_has t x v); [|contradiction]. destruct Hin as [<-|[]]. cbn.
        eapply get_ext_number; eassumption.
    - intros x Hx Hy. apply in_map_iff in Hx. destruct Hx as (i1 & <- & H1).
      apply in_map_iff in Hy. destruct Hy as (i2 & E & H2).
      apply filter_In in H1. destruct H1 as [H1 _]. apply filter_In in H2. destruct H2 as [H2 Hu].
      apply declared_inv in H1. destruct H1 as (f & Hf & -> & _). apply descs_get in Hf.
      unfold iter_rest in H2. apply in_flat_map in H2. destruct H2 as ([k s] & _ & H2). cbn in H2.
      destruct s as [|v'|us]; [contradiction| |destruct H2 as [<-|[]]; discriminate].
      destruct (get_ext t (dm_desc m) k) as [x|] eqn:Ex; [|contradiction].
      destruct (fd_has t x v'); [|contradiction]. destruct H2 as [<-|[]].
      cbn in E. pose proof (get_ext_number _ _ _ _ Ht Ex) as En. subst k.
      rewrite E in Ex. rewrite (field_ext_disjoint _ _ _ _ Hwf Ex) in Hf. discriminate.
  Qed.

  (** members of a oneof have presence *)
  Definition oneofs_present : Prop :=
    forall d n f nums, get_field t d n = Some f -> fd_oneof f = Some nums -> fd_presence f = true.

  Lemma known_compat m it1 it2 f1 v1 f2 v2 : oneofs_present -> msg_ok t m ->
    is_known (dm_desc m) (dm_fields m) it1 f1 v1 -> is_known (dm_desc m) (dm_fields m) it2 f2 v2 ->
    ~ sibling f1 (fd_number f2).
  Proof.
    intros Hop Hm K1 K2 (nums & Ho & Hin & Hne).
    pose proof (ik_desc _ _ _ _ _ K1) as D1. pose proof (ik_desc _ _ _ _ _ K2) as D2.
    assert (G1 : get_field t (dm_desc m) (fd_number f1) = Some f1).
    { unfold find_desc in D1. destruct (get_field t (dm_desc m) (fd_number f1)); [exact D1|].
      rewrite (get_ext_oneof _ _ _ _ Ht D1) in Ho. discriminate. }
    destruct (oneof_siblings _ _ _ _ _ _ Ht G1 Ho Hin) as (g & Eg & Hog).
    unfold find_desc in D2. rewrite Eg in D2. injection D2 as ->.
    assert (P1 : fd_presence f1 = true) by (eapply Hop; [exact G1|exact Ho]).
    assert (P2 : fd_presence f2 = true) by (eapply Hop; [exact Eg|exact Hog]).
    destruct (ik_why _ _ _ _ _ K1) as [W1|(_ & W1 & _)]; [|congruence].
    destruct (ik_why _ _ _ _ _ K2) as [W2|(_ & W2 & _)]; [|congruence].
    unfold fs_has, fs_get_value in W1, W2.
    destruct (bt_get (fd_number f1) (dm_fields m)) as [[|w1|us]|] eqn:B1; try discriminate.
    destruct (bt_get (fd_number f2) (dm_fields m)) as [[|w2|us]|] eqn:B2; try discriminate.
    eapply (mo_oneof _ _ Hm (fd_number f1) f1 w1 nums (fd_number f2) w2); eauto.
  Qed.

  (** ** Rebuilding a message from what was printed *)
  Definition put_item (g : value -> value) (fs : fieldset) (it : item value) : fieldset :=
    match fitem it with
    | Some (f, v) => bt_set (fd_number f) (SVal (g v)) fs
    | None => fs
    end.
  Definition rebuild (g : value -> value) (its : list (item value)) : fieldset := fold_left (put_item g) its [].

  Lemma put_items_sorted g its : forall fs, bt_sorted fs -> bt_sorted (fold_left (put_item g) its fs).
  Proof.
    induction its as [|it its IH]; intros fs H; cbn; [exact H|]. apply IH. unfold put_item.
    destruct (fitem it) as [[f v]|]; [apply bt_set_sorted, H|exact H].
  Qed.
  Lemma put_items_other g its : forall fs k, (forall it f v, In it its -> fitem it = Some (f, v) -> fd_number f <> k) ->
    bt_get k (fold_left (put_item g) its fs) = bt_get k fs.
  Proof.
    induction its as [|it its IH]; intros fs k Hk; cbn [fold_left]; [reflexivity|].
    rewrite IH by (intros; eapply Hk; [right; eassumption|eassumption]). unfold put_item.
    destruct (fitem it) as [[f v]|] eqn:E; [|reflexivity]. apply bt_get_set_other. intros ->.
    eapply Hk; [left; reflexivity|exact E|reflexivity].
  Qed.
  Lemma put_items_get g its : forall fs it f v, NoDup (map knum its) -> In it its -> fitem it = Some (f, v) ->
    (forall it, In it its -> fitem it <> None) ->
    bt_get (fd_number f) (fold_left (put_item g) its fs) = Some (SVal (g v)).
  Proof.
    induction its as [|i its IH]; intros fs it f v Hn Hin E Hall; [contradiction|].
    cbn in Hn. inversion_clear Hn as [|? ? Hni Hn']. cbn [fold_left]. destruct Hin as [->|Hin].
    - rewrite put_items_other; [unfold put_item; rewrite E; apply bt_get_set_same|].
      intros it' f' v' Hin' E' Hnum. apply Hni. apply in_map_iff. exists it'. split; [|exact Hin'].
      unfold knum. rewrite E, E'. exact Hnum.
    - eapply IH; eauto. intros i' Hi'. apply Hall. right. exact Hi'.
  Qed.
  Lemma rebuild_get g m f : msg_ok t m -> find_desc t (dm_desc m) (fd_number f) = Some f ->
    bt_get (fd_number f) (rebuild g (known (dm_desc m) (dm_fields m))) =
    if fs_has t f (dm_fields m) || full && negb (fd_presence f) && match get_field t (dm_desc m) (fd_number f) with Some _ => true | None => false end
    then Some (SVal (g (fs_get t f (dm_fields m)))) else None.
  Proof.
    intros Hm Hf. unfold rebuild.
    destruct (fs_has t f (dm_fields m) || full && negb (fd_presence f) && match get_field t (dm_desc m) (fd_number f) with Some _ => true | None => false end) eqn:E.
    - assert (W : fs_has t f (dm_fields m) = true \/ (full = true /\ fd_presence f = false /\ get_field t (dm_desc m) (fd_number f) = Some f)).
      { apply orb_true_iff in E. destruct E as [E|E]; [left; exact E|right]. rewrite !andb_true_iff, negb_true_iff in E.
        destruct E as [[E1 E2] E3]. split; [exact E1|]. split; [exact E2|]. unfold find_desc in Hf.
        destruct (get_field t (dm_desc m) (fd_number f)); [exact Hf|discriminate]. }
      destruct (known_intro m f Hm Hf W) as (it & Hin & Ei).
      eapply put_items_get; [apply known_nodup, Hm|exact Hin|exact Ei|].
      intros i Hi. destruct (known_inv m i Hm Hi) as (f' & v' & K). rewrite (ik_item _ _ _ _ _ K). discriminate.
    - rewrite put_items_other; [reflexivity|]. intros it f' v' Hin Ei Hnum.
      destruct (known_inv m it Hm Hin) as (f2 & v2 & K). pose proof (ik_item _ _ _ _ _ K) as E2. rewrite Ei in E2. injection E2 as <- <-.
      pose proof (ik_desc _ _ _ _ _ K) as D. rewrite Hnum, Hf in D. injection D as <-.
      destruct (ik_why _ _ _ _ _ K) as [W|(W1 & W2 & W3)].
      + rewrite W in E. discriminate.
      + rewrite W1, W2, W3 in E. rewrite orb_true_r in E. discriminate.
  Qed.
  Lemma known_ok m it f v : msg_ok t m -> is_known (dm_desc m) (dm_fields m) it f v -> ok_field t f v = true.
  Proof.
    intros Hm K. rewrite <- (ik_val _ _ _ _ _ K). destruct m as [d fs]. eapply (stored_ok t Hwf); [exact Hm|apply (ik_desc _ _ _ _ _ K)].
  Qed.

  (** only fields with presence have declared defaults *)
  Definition defaults_plain : Prop :=
    forall d n f, get_field t d n = Some f -> fd_presence f = false -> fd_default f = None.
  Lemma kind_default_eq k : is_msg_kind k = false -> value_eqb (kind_default t k) (kind_default t k) = true.
  Proof.
    destruct k; intros H; try discriminate H; try reflexivity. cbn [kind_default]. apply Z.eqb_refl.
  Qed.
  Lemma default_not_set d n f : defaults_plain -> get_field t d n = Some f -> fd_presence f = false ->
    fd_has t f (fd_default_value t f) = false.
  Proof.
    intros Hd Hf Hp. pose proof (get_field_ok _ _ _ _ Ht Hf) as Hfo. pose proof (Hd _ _ _ Hf Hp) as Hn.
    unfold fd_has, is_default_for. rewrite Hp. cbn [orb]. apply negb_false_iff.
    unfold fd_default_value. destruct (fd_is_list f) eqn:El; [reflexivity|]. destruct (fd_is_map f) eqn:Em; [reflexivity|].
    rewrite Hn. apply kind_default_eq. destruct (is_msg_kind (fd_kind f)) eqn:Ek; [|reflexivity].
    rewrite (fo_msg _ _ Hfo Ek) in Hp by (apply not_repeated; assumption). discriminate.
  Qed.

  (** The rebuilt message agrees with the original, if every value does with
      what it was turned into. *)
  Lemma agree_rebuild (g : value -> value) m :
    msg_ok t m -> defaults_plain ->
    (forall f v, find_desc t (dm_desc m) (fd_number f) = Some f -> ok_field t f v = true ->
       fd_has t f (g v) = fd_has t f v /\ (fd_has t f v = false -> g v = v)) ->
    (forall f, find_desc t (dm_desc m) (fd_number f) = Some f -> fs_has t f (dm_fields m) = true ->
       agree t (fs_get t f (dm_fields m)) (g (fs_get t f (dm_fields m)))) ->
    (forall k v, bt_get k (dm_fields m) = Some (SVal v) -> shown t full (dm_desc m) k v = true) ->
    agree_msg t m (DM (dm_desc m) (rebuild g (known (dm_desc m) (dm_fields m)))).
  Proof.
    intros Hm Hdp Hg Ha Hz.
    assert (St : forall f, find_desc t (dm_desc m) (fd_number f) = Some f -> ok_field t f (fs_get t f (dm_fields m)) = true).
    { intros f Hf. destruct m as [d fs]. eapply (stored_ok t Hwf); [exact Hm|exact Hf]. }
    assert (Nh : forall f, find_desc t (dm_desc m) (fd_number f) = Some f -> fs_has t f (dm_fields m) = false ->
      full && negb (fd_presence f) && match get_field t (dm_desc m) (fd_number f) with Some _ => true | None => false end = true ->
      fd_has t f (fs_get t f (dm_fields m)) = false).
    { intros f Hf Hh Hw. rewrite !andb_true_iff, negb_true_iff in Hw. destruct Hw as [[_ Hp] Hgf].
      assert (Eg : get_field t (dm_desc m) (fd_number f) = Some f).
      { unfold find_desc in Hf. destruct (get_field t (dm_desc m) (fd_number f)); [exact Hf|discriminate]. }
      unfold fs_has, fs_get in *. destruct (fs_get_value (dm_fields m) (fd_number f)); [exact Hh|].
      eapply default_not_set; eassumption. }
    unfold agree_msg. apply agree_message; [reflexivity| | |]; cbn [dm_desc].
    - intros n f Hf. rewrite <- (find_desc_number _ _ _ _ Ht Hf) in Hf.
      unfold has_field. cbn [dm_fields]. unfold fs_has at 2, fs_get_value. rewrite (rebuild_get g m f Hm Hf).
      destruct (fs_has t f (dm_fields m)) eqn:Eh; cbn [orb].
      + destruct (Hg f _ Hf (St f Hf)) as [H1 _]. rewrite H1.
        unfold fs_has, fs_get in *. destruct (fs_get_value (dm_fields m) (fd_number f)); [symmetry; exact Eh|discriminate].
      + destruct (full && _ && _) eqn:Ew; [|reflexivity]. destruct (Hg f _ Hf (St f Hf)) as [H1 _]. rewrite H1.
        symmetry. now apply Nh.
    - intros n f Hf. rewrite <- (find_desc_number _ _ _ _ Ht Hf) in Hf.
      unfold has_field, get_field_value. cbn [dm_fields]. intros Eh. unfold fs_get at 2, fs_get_value.
      rewrite (rebuild_get g m f Hm Hf), Eh. cbn [orb]. now apply Ha.
    - intros n f Hf. rewrite <- (find_desc_number _ _ _ _ Ht Hf) in Hf. pose proof (find_desc_ok _ _ _ _ Ht Hf) as Hfo.
      unfold has_field, get_field_value. cbn [dm_fields]. intros Eh. unfold fs_get at 2, fs_get_value.
      rewrite (rebuild_get g m f Hm Hf), Eh. cbn [orb].
      destruct (full && negb (fd_presence f) && match get_field t (dm_desc m) (fd_number f) with Some _ => true | None => false end) eqn:Ew.
      + destruct (Hg f _ Hf (St f Hf)) as [_ H2]. symmetry. apply H2. now apply Nh.
      + pose proof (St f Hf) as Hok. unfold fs_has, fs_get, fs_get_value in *.
        destruct (bt_get (fd_number f) (dm_fields m)) as [[|v|us]|] eqn:Eb; try reflexivity.
        pose proof (Hz _ _ Eb) as Hs. unfold shown in Hs. rewrite Hf in Hs.
        apply omitted_default; auto; [|rewrite has_omitted in Eh; now apply negb_false_iff in Eh].
        apply orb_true_iff in Hs. destruct Hs as [Hs|Hs]; [exact Hs|].
        assert (Hp : fd_presence f = false) by (unfold fd_has in Eh; apply orb_false_iff in Eh; exact (proj1 Eh)).
        rewrite Hp in Ew. destruct (get_field t (dm_desc m) (fd_number f)); [|discriminate]. rewrite Hs in Ew. discriminate.
  Qed.

  (** ** The value read back *)

  (** every message inside is rebuilt, unless [ran] says what becomes of it *)
  Variable ran : dynmsg -> option dynmsg.
  Fixpoint renew (v : value) : value :=
    match v with
    | VMessage (DM d fs) =>
        VMessage (match ran (DM d fs) with Some m' => m' | None => DM d (fold_left (fun acc it =>
            match it with
            | IField f (_, w) | IExt f (_, w) => bt_set (fd_number f) (SVal w) acc
            | IUnk _ => acc
            end)
          (fs_iter_gen t fst (fun f => (fd_default_value t f, fd_default_value t f)) d full idx
             (map (fun kv => (fst kv, match snd kv with
                                      | SVal v' => SVal (v', renew v')
                                      | Taken => Taken
                                      | SUnk us => SUnk us
                                      end)) fs)) []) end)
    | VList vs => VList (map renew vs)
    | VMap kvs => VMap (map (fun kv => (fst kv, renew (snd kv))) kvs)
    | _ => v
    end.
  Definition renew_msg (m : dynmsg) : dynmsg :=
    DM (dm_desc m) (rebuild renew (known (dm_desc m) (dm_fields m))).
  Definition renewed (m : dynmsg) : dynmsg := match ran m with Some m' => m' | None => renew_msg m end.
End Items.

(** Printers that carry something along with each value walk through the same
    fields. *)
Section Along.
  Variables (t : tables) (V : Type) (c : value -> V) (dflt : fdl -> V).
  Variables full idx : bool.
  Definition with_c (v : value) : value * V := (v, c v).
  Definition slot_c (kv : N * slot value) : N * slot (value * V) :=
    (fst kv, match snd kv with SVal v => SVal (with_c v) | Taken => Taken | SUnk us => SUnk us end).
  Definition item_c (it : item value) : item (value * V) :=
    match it with
    | IField f v => IField f (with_c v)
    | IExt f v => IExt f (with_c v)
    | IUnk us => IUnk us
    end.
  Lemma get_value_along (fs : fieldset) k : fs_get_value (map slot_c fs) k = option_map with_c (fs_get_value fs k).
  Proof.
    unfold fs_get_value. induction fs as [|[k' s] fs IH]; cbn [map bt_get]; [reflexivity|]. unfold slot_c at 1. cbn [fst snd].
    destruct (k =? k'); [|exact IH]. destruct s; reflexivity.
  Qed.
  Lemma iter_along d fs :
    (forall f, In f (if idx then msg_fields_index t d else msg_fields t d) -> full = true -> fd_presence f = false -> dflt f = c (fd_default_value t f)) ->
    fs_iter_gen t fst (fun f => (fd_default_value t f, dflt f)) d full idx (map slot_c fs)
    = map item_c (fs_iter t d full idx fs).
  Proof.
    intros Hd. unfold fs_iter, fs_iter_gen. rewrite map_app. f_equal.
    - unfold iter_declared. induction (if idx then msg_fields_index t d else msg_fields t d) as [|f l IH]; [reflexivity|].
      cbn [flat_map]. rewrite map_app, IH by (intros; apply Hd; [right; assumption|assumption|assumption]). f_equal.
      rewrite get_value_along. destruct (fs_get_value fs (fd_number f)) as [v|]; cbn [option_map].
      + unfold with_c at 1 2. cbn [fst]. destruct (if full then _ else _); reflexivity.
      + destruct full; cbn [andb]; [|reflexivity]. destruct (fd_presence f) eqn:Ep; cbn [negb]; [reflexivity|].
        cbn [map item_c]. unfold with_c. rewrite Hd; [reflexivity|left; reflexivity|reflexivity|exact Ep].
    - unfold iter_rest. induction fs as [|[k s] fs IH]; [reflexivity|]. cbn [map flat_map]. rewrite IH, map_app. f_equal.
      unfold slot_c. cbn [fst snd]. destruct s as [|v|us]; try reflexivity.
      destruct (get_ext t d k); [|reflexivity]. cbn [with_c fst]. destruct (fd_has t f v); reflexivity.
  Qed.
End Along.

Section Renew.
  Variable t : tables.
  Hypothesis Hwf : wf t.
  Let Ht : tables_ok t := proj1 Hwf.
  Variables full idx : bool.
  Hypothesis Hdp : defaults_plain t.
  Variable ran : dynmsg -> option dynmsg.
  Notation renew := (renew t full idx ran).
  Notation renew_msg := (renew_msg t full idx ran).
  Notation renewed := (renewed t full idx ran).

  Lemma renew_default f : fdl_ok t f -> fd_presence f = false -> renew (fd_default_value t f) = fd_default_value t f.
  Proof.
    intros Hf Hp. unfold fd_default_value. destruct (fd_is_list f) eqn:El; [reflexivity|]. destruct (fd_is_map f) eqn:Em; [reflexivity|].
    destruct (fd_default f) as [v|] eqn:Ed.
    - pose proof (fo_default _ _ Hf _ Ed) as Hs. destruct v; try reflexivity; destruct (fd_kind f); discriminate Hs.
    - destruct (fd_kind f) as [| | | | | | | | | | | | | | | i | i |] eqn:Ek; try reflexivity;
      (rewrite (fo_msg _ _ Hf) in Hp; [discriminate|rewrite Ek; reflexivity|apply not_repeated; assumption]).
  Qed.
  Lemma renew_message m : renew (VMessage m) = VMessage (renewed m).
  Proof.
    destruct m as [d fs]. unfold ItemRound.renewed, ItemRound.renew_msg. cbn [ItemRound.renew dm_desc dm_fields].
    destruct (ran (DM d fs)); [reflexivity|]. do 2 f_equal.
    change (map _ fs) with (map (slot_c value renew) fs).
    rewrite iter_along.
    - unfold rebuild, known. generalize (fs_iter t d full idx fs) as its. generalize (@nil (N * slot value)) as acc.
      intros acc its. revert acc. induction its as [|it its IH]; intros acc; [reflexivity|].
      destruct it; cbn [map fold_left item_c filter is_unknown negb]; rewrite IH; reflexivity.
    - intros f Hin _ Hp. symmetry. apply renew_default; [|exact Hp].
      apply (descs_get t Hwf idx) in Hin. eapply get_field_ok; eassumption.
  Qed.
  Lemma renew_has f v : fdl_ok t f -> ok_field t f v = true ->
    fd_has t f (renew v) = fd_has t f v /\ (fd_has t f v = false -> renew v = v).
  Proof.
    intros Hf Hok. destruct v; try (split; [reflexivity|intros _; reflexivity]).
    - rewrite renew_message. unfold fd_has. rewrite (ok_field_msg t f _ Hf Hok). split; [reflexivity|discriminate].
    - unfold fd_has, is_default_for. rewrite (ok_field_list t f _ Hok). cbn [ItemRound.renew]. destruct vs; cbn [map]; [auto|].
      split; [reflexivity|]. rewrite orb_true_r. discriminate.
    - unfold fd_has, is_default_for. rewrite (ok_field_map t f _ Hok). cbn [ItemRound.renew]. destruct kvs; cbn [map]; [auto|].
      split; [reflexivity|]. rewrite orb_true_r. discriminate.
  Qed.

  Lemma map_get_renew k l : map_get k (map (fun kv => (fst kv, renew (snd kv))) l) = option_map renew (map_get k l).
  Proof.
    induction l as [|[k' v] l IH]; cbn; [reflexivity|]. destruct (mk_eqb k k'); [reflexivity|exact IH].
  Qed.

  Hypothesis Hran : forall m, ran m = None.
  Definition agrees (v : value) : Prop :=
    (exists f, fdl_ok t f /\ ok_field t f v = true) \/ (exists k, ok_elem t v k = true) ->
    zeros_shown t full v = true -> agree t v (renew v).
  Lemma agree_message_renew m : msg_ok t m -> Forall (fun kv => slot_all agrees (snd kv)) (dm_fields m) ->
    zeros_shown t full (VMessage m) = true -> agree_msg t m (renew_msg m).
  Proof.
    intros Hm HI Hz. rewrite Forall_forall in HI.
    assert (Z : forall k v, bt_get k (dm_fields m) = Some (SVal v) -> shown t full (dm_desc m) k v = true /\ zeros_shown t full v = true).
    { intros k v Hb. destruct m as [d fs]. cbn [zeros_shown dm_fields dm_desc] in *. rewrite forallb_forall in Hz.
      specialize (Hz _ (bt_get_In _ _ _ Hb)). cbn [fst snd] in Hz. now apply andb_true_iff in Hz. }
    unfold ItemRound.renew_msg. apply agree_rebuild; auto.
    - intros f v Hf Hok. apply renew_has; [eapply find_desc_ok; eassumption|exact Hok].
    - intros f Hf Hh. pose proof Hf as Hfd. unfold fs_has, fs_get, fs_get_value in *.
      destruct (bt_get (fd_number f) (dm_fields m)) as [[|v|us]|] eqn:Eb; try discriminate.
      pose proof (mo_slots _ _ Hm _ _ Eb) as S. cbn in S. rewrite Hf in S.
      pose proof (HI _ (bt_get_In _ _ _ Eb)) as A. cbn in A. apply A; [|apply (Z _ _ Eb)].
      left. exists f. split; [eapply find_desc_ok; eassumption|exact S].
    - intros k v Hb. apply (Z _ _ Hb).
  Qed.
  Lemma value_agrees v : agrees v.
  Proof.
    induction v as [b|z|z|n|n|n|n|s|s|z|d fs IH|vs IH|kvs IH] using value_ind'; intros Hok Hz;
      try (apply agree_scalar; reflexivity).
    - rewrite renew_message. unfold ItemRound.renewed. rewrite Hran. apply agree_message_renew; [|exact IH|exact Hz].
      assert (exists k, ok_elem t (VMessage (DM d fs)) k = true) as [k Hk].
      { destruct Hok as [(f & Hf & Hok)|Hok]; [|exact Hok]. rewrite ok_field_plain in Hok by reflexivity.
        rewrite !andb_true_iff in Hok. eexists. apply Hok. }
      rewrite ok_elem_msg in Hk. destruct (kind_msg k); [|discriminate]. apply andb_true_iff in Hk. apply ok_msg_iff, Hk.
    - destruct Hok as [(f & Hf & Hok)|(k & Hk)]; [|discriminate Hk]. cbn in Hok. apply andb_true_iff in Hok. destruct Hok as [_ Hok].
      cbn [ItemRound.renew]. apply agree_list. cbn [zeros_shown] in Hz. rewrite forallb_forall in Hok, Hz. rewrite Forall_forall in IH.
      revert Hok Hz IH. induction vs as [|v vs IHl]; intros Hok Hz IH; [constructor|]. cbn [map]. constructor.
      + apply IH; [left; reflexivity|right; exists (fd_kind f); apply Hok; left; reflexivity|apply Hz; left; reflexivity].
      + apply IHl; intros; [apply Hok|apply Hz|apply IH]; right; assumption.
    - destruct Hok as [(f & Hf & Hok)|(k & Hk)]; [|discriminate Hk]. cbn in Hok.
      destruct (kind_msg (fd_kind f)) as [e|]; [|discriminate]. destruct (fd_is_map f); [|discriminate].
      destruct (entry_key t e) as [kf|]; [|discriminate]. destruct (entry_value t e) as [vf|]; [|discriminate].
      apply andb_true_iff in Hok. destruct Hok as [_ Hok]. cbn [zeros_shown] in Hz. rewrite forallb_forall in Hok, Hz. rewrite Forall_forall in IH.
      cbn [ItemRound.renew]. apply agree_map.
      + now rewrite map_length.
      + intros k. rewrite map_get_renew. destruct (map_get k kvs); cbn; split; congruence.
      + intros k a b Ha. rewrite map_get_renew, Ha. cbn [option_map]. intros [= <-]. apply map_get_In in Ha.
        apply (IH _ Ha); [|apply (Hz _ Ha)]. right. exists (fd_kind vf). specialize (Hok _ Ha). now apply andb_true_iff in Hok.
  Qed.
  Theorem renew_agrees m : ok_msg t m = true -> zeros_shown t full (VMessage m) = true -> agree_msg t m (renew_msg m).
  Proof.
    intros Hm Hz. apply agree_message_renew; [now apply ok_msg_iff| |exact Hz].
    apply Forall_forall. intros [k s] _. destruct s; cbn; auto. apply value_agrees.
  Qed.
End Renew.
