(** C48: what the members of a JSON object stand for. *)
From Coq Require Import String.
From Verif Require Import Base BaseProofs Wire Unknown Value Descr Fields Codec DescrOk DescrProofs
  FieldsProofs MergeProofs Float TextFormat TextParse Json JsonSer JsonDe JsonWkt JsonSafe Prop_TextSafe Prop_JsonSafe
  ExampleSchema ExampleJson.
Open Scope list_scope.
Open Scope N_scope.

(** ** Specification *)

(** The field a member name stands for: a declared field by its JSON name, else
    by its proto name, else an extension by its JSON name, which is its full
    name in brackets. *)
Inductive stands_for (t : tables) (d : nat) (key : str) : option fdl -> Prop :=
| by_json f : In f (msg_fields t d) -> fd_json f = key -> stands_for t d key (Some f)
| by_name f : In f (msg_fields t d) -> fd_name f = key ->
    (forall g, In g (msg_fields t d) -> fd_json g <> key) -> stands_for t d key (Some f)
| by_ext f before after : msg_exts t d = before ++ f :: after -> fd_json f = key ->
    (forall g, In g (msg_fields t d) -> fd_json g <> key /\ fd_name g <> key) ->
    (forall g, In g before -> fd_json g <> key) -> stands_for t d key (Some f)
| by_nothing :
    (forall g, In g (msg_fields t d) -> fd_json g <> key /\ fd_name g <> key) ->
    (forall g, In g (msg_exts t d) -> fd_json g <> key) -> stands_for t d key None.

(** What a member gives its field; null gives nothing, except where it is a
    value. *)
Inductive gives (E : json_externs) (t : tables) (deny : bool) (f : fdl) : json -> option value -> Prop :=
| gives_unset : takes_null t f = false -> gives E t deny f JNull None
| gives_null_enum e : fd_kind f = KEnum e -> takes_null t f = true -> gives E t deny f JNull (Some (VEnum 0))
| gives_null_value d v : kind_msg (fd_kind f) = Some d -> takes_null t f = true ->
    de E t deny JNull false (TGoal (GMsg d)) = JOk (Some v) -> gives E t deny f JNull (Some v)
| gives_value j o : j <> JNull -> de E t deny j false (TGoal (field_goal f)) = JOk o -> gives E t deny f j o.

(** the fields and values that the members of an object give, in order *)
Inductive reads (E : json_externs) (t : tables) (deny : bool) (d : nat) : list (str * json) -> list (fdl * value) -> Prop :=
| reads_nil : reads E t deny d [] []
| reads_value key j l f x gs : stands_for t d key (Some f) -> gives E t deny f j (Some x) ->
    reads E t deny d l gs -> reads E t deny d ((key, j) :: l) ((f, x) :: gs)
| reads_unset key j l f gs : stands_for t d key (Some f) -> gives E t deny f j None ->
    reads E t deny d l gs -> reads E t deny d ((key, j) :: l) gs
| reads_unknown key j l gs : stands_for t d key None -> deny = false ->
    reads E t deny d l gs -> reads E t deny d ((key, j) :: l) gs.

Definition same_oneof (f g : fdl) : Prop := exists nums, fd_oneof f = Some nums /\ In (fd_number g) nums.
(** no oneof is given twice, not even the same member of it *)
Definition oneofs_once (gs : list (fdl * value)) : Prop :=
  ForallOrdPairs (fun a b => ~ same_oneof (fst a) (fst b)) gs.
(** the value given last to the field numbered [n] *)
Fixpoint last_given (n : N) (gs : list (fdl * value)) : option value :=
  match gs with
  | [] => None
  | (f, x) :: r => match last_given n r with
                   | Some y => Some y
                   | None => if fd_number f =? n then Some x else None
                   end
  end.

(** members of a oneof have presence; the builder makes them so *)
Definition oneof_presenceb (t : tables) : bool :=
  forallb (fun d => forallb (fun f => fd_presence f || match fd_oneof f with None => true | Some _ => false end) (msg_fields t d))
    (seq 0 (length (t_messages t))).
(** the documents and pools of C53 *)
Definition readable (E : json_externs) (t : tables) (j : json) : Prop :=
  wf t /\ exts_distinctb t = true /\ times_fit E /\ oneof_presenceb t = true /\
  (json_okb false j = true \/ json_okb true j = true /\ no_null_listsb t = true).

(** ** Lookups *)

Lemma find_first {A} (p : A -> bool) l x : find p l = Some x <->
  exists b a, l = b ++ x :: a /\ p x = true /\ forall y, In y b -> p y = false.
Proof.
  split.
  - induction l as [|y l IH]; cbn; [discriminate|]. destruct (p y) eqn:Ep.
    + intros [= <-]. exists [], l. repeat split; auto. intros z [].
    + intros H. destruct (IH H) as (b & a & -> & P1 & P2). exists (y :: b), a. repeat split; auto. intros z [<-|Hz]; auto.
  - intros (b & a & -> & P1 & P2). induction b as [|y b IH]; cbn; [now rewrite P1|]. rewrite (P2 y) by (now left). apply IH.
    intros z Hz. apply P2. now right.
Qed.
Lemma by_json_spec t d key f : tables_ok t -> get_field_by_json t d key = Some f <-> In f (msg_fields t d) /\ fd_json f = key.
Proof.
  intros Ht. split.
  - intros H. destruct (get_field_by_json_number _ _ _ _ Ht H) as [H1 H2]. split; [|exact H1]. now apply msg_fields_get.
  - intros [H1 <-]. apply msg_fields_get in H1; [|exact Ht]. eapply get_field_number_json; eassumption.
Qed.
Lemma by_name_spec t d key f : tables_ok t -> get_field_by_name t d key = Some f <-> In f (msg_fields t d) /\ fd_name f = key.
Proof.
  intros Ht. split.
  - intros H. destruct (get_field_by_name_number _ _ _ _ Ht H) as [H1 H2]. split; [|exact H1]. now apply msg_fields_get.
  - intros [H1 <-]. apply msg_fields_get in H1; [|exact Ht]. eapply get_field_number_name; eassumption.
Qed.
(** the lookup of de_members *)
Definition member_field (t : tables) (d : nat) (key : str) : option fdl :=
  match json_field t d key with Some f => Some f | None => get_ext_by_json t d key end.
Lemma stands_for_spec t d key o : tables_ok t -> stands_for t d key o <-> member_field t d key = o.
Proof.
  intros Ht. assert (J : forall g, In g (msg_fields t d) -> fd_json g = key -> get_field_by_json t d key = Some g) by (intros; now apply by_json_spec).
  assert (Nm : forall g, In g (msg_fields t d) -> fd_name g = key -> get_field_by_name t d key = Some g) by (intros; now apply by_name_spec).
  assert (NJ : (forall g, In g (msg_fields t d) -> fd_json g <> key) -> get_field_by_json t d key = None).
  { intros H. destruct (get_field_by_json t d key) as [g|] eqn:Eg; [|reflexivity]. apply by_json_spec in Eg; [|exact Ht]. destruct (H g); tauto. }
  assert (NN : (forall g, In g (msg_fields t d) -> fd_name g <> key) -> get_field_by_name t d key = None).
  { intros H. destruct (get_field_by_name t d key) as [g|] eqn:Eg; [|reflexivity]. apply by_name_spec in Eg; [|exact Ht]. destruct (H g); tauto. }
  unfold member_field, json_field. split.
  - intros [f H1 H2|f H1 H2 H3|f b a H1 H2 H3 H4|H3 H4].
    + now rewrite (J f H1 H2).
    + now rewrite (NJ H3), (Nm f H1 H2).
    + rewrite (NJ (fun g Hg => proj1 (H3 g Hg))), (NN (fun g Hg => proj2 (H3 g Hg))). unfold get_ext_by_json. apply find_first.
      exists b, a. split; [exact H1|]. split; [apply bytes_eqb_eq, H2|]. intros y Hy. apply bytes_eqb_neq. exact (H4 y Hy).
    + rewrite (NJ (fun g Hg => proj1 (H3 g Hg))), (NN (fun g Hg => proj2 (H3 g Hg))). unfold get_ext_by_json.
      destruct (find _ (msg_exts t d)) as [g|] eqn:Eg; [|reflexivity]. apply find_some in Eg. destruct Eg as [G1 G2].
      apply bytes_eqb_eq in G2. destruct (H4 g G1 G2).
  - intros <-. destruct (get_field_by_json t d key) as [f|] eqn:Ej.
    { apply by_json_spec in Ej; [|exact Ht]. apply by_json; tauto. }
    assert (J' : forall g, In g (msg_fields t d) -> fd_json g <> key) by (intros g G1 G2; pose proof (J g G1 G2); congruence).
    destruct (get_field_by_name t d key) as [f|] eqn:En.
    { apply by_name_spec in En; [|exact Ht]. apply by_name; tauto. }
    assert (N' : forall g, In g (msg_fields t d) -> fd_name g <> key) by (intros g G1 G2; pose proof (Nm g G1 G2); congruence).
    unfold get_ext_by_json. destruct (find _ (msg_exts t d)) as [f|] eqn:Ef.
    + apply find_first in Ef. destruct Ef as (b & a & F1 & F2 & F3). apply bytes_eqb_eq in F2.
      apply (by_ext t d key f b a); auto. intros g Hg Hk. specialize (F3 g Hg). cbn in F3. rewrite Hk, bytes_eqb_refl in F3. discriminate.
    + apply by_nothing; auto. intros g Hg Hk. eapply find_none in Ef; [|exact Hg]. cbn in Ef. rewrite Hk, bytes_eqb_refl in Ef. discriminate.
Qed.
Lemma gives_spec E t deny f j o : gives E t deny f j o <-> de E t deny j false (TOpt f) = JOk o.
Proof.
  assert (V : forall d, bytes_eqb (full_name t d) (s2b "google.protobuf.Value") = true -> wkt_of t d = Some WValue).
  { intros d H. apply bytes_eqb_eq in H. unfold wkt_of. rewrite H. vm_compute. reflexivity. }
  split.
  - intros [H|e He H|d v Hd H Hv|j' o' Hj H].
    + cbn [de]. now apply no_null.
    + cbn [de]. unfold null_field, takes_null, is_null_enum in *. rewrite He in *. cbn [kind_msg]. now rewrite H.
    + cbn [de] in *. unfold null_field, takes_null in *. rewrite Hd.
      assert (Hn : bytes_eqb (full_name t d) (s2b "google.protobuf.Value") = true) by (destruct (fd_kind f); cbn in Hd; try discriminate; injection Hd as <-; exact H).
      rewrite Hn. cbn [de_atom] in Hv. rewrite (V d Hn) in Hv. exact Hv.
    + now rewrite de_opt.
  - intros H. assert (D : j = JNull \/ j <> JNull) by (destruct j; auto; right; discriminate). destruct D as [->|D].
    + cbn [de] in H. destruct (takes_null t f) eqn:Et; [|rewrite (no_null t f Et) in H; injection H as <-; now constructor].
      unfold null_field in H. destruct (kind_msg (fd_kind f)) as [d|] eqn:Ek.
      * assert (Hn : bytes_eqb (full_name t d) (s2b "google.protobuf.Value") = true)
          by (unfold takes_null in Et; destruct (fd_kind f); cbn in Ek; try discriminate; injection Ek as <-; exact Et).
        rewrite Hn in H. destruct o as [v|].
        -- apply (gives_null_value E t deny f d v Ek Et). cbn [de de_atom]. rewrite (V d Hn). exact H.
        -- unfold make_message in H. destruct (jdec _); cbn in H; try discriminate. destruct (msg_merge _ _ _); discriminate.
      * unfold takes_null in Et. destruct (fd_kind f) eqn:Efk; try discriminate Et; try discriminate Ek.
        unfold is_null_enum in H. rewrite Et in H. injection H as <-. eapply gives_null_enum; [exact Efk|]. unfold takes_null. now rewrite Efk.
    + apply gives_value; [exact D|]. now rewrite <- de_opt.
Qed.
Lemma oneof_presence t d n f nums : tables_ok t -> oneof_presenceb t = true -> get_field t d n = Some f -> fd_oneof f = Some nums -> fd_presence f = true.
Proof.
  intros Ht H Hf Ho. unfold oneof_presenceb in H. rewrite forallb_forall in H.
  assert (Hd : (d < length (t_messages t))%nat).
  { unfold get_field in Hf. apply nth_error_Some. destruct (nth_error (t_messages t) d); congruence. }
  specialize (H d ltac:(apply in_seq; lia)). rewrite forallb_forall in H. specialize (H f (get_field_in _ _ _ _ Ht Hf)).
  rewrite Ho, orb_false_r in H. exact H.
Qed.

(** ** Reading the members in order *)

(** the message after the assignments *)
Definition assign (m : dynmsg) (gs : list (fdl * value)) : dynmsg := fold_left (fun m fx => set_extension m (fst fx) (snd fx)) gs m.
(** every slot holds a value *)
Definition all_set (m : dynmsg) : Prop := forall n s, bt_get n (dm_fields m) = Some s -> exists v, s = SVal v.
Definition free (m : dynmsg) (f : fdl) : Prop :=
  forall nums n, fd_oneof f = Some nums -> In n nums -> bt_get n (dm_fields m) = None.

Section Members.
  Variables (E : json_externs) (t : tables) (deny nulls : bool).
  Hypothesis Hw : wf t.
  Hypothesis Hx : forall d, NoDup (map fd_number (msg_exts t d)).
  Hypothesis Hnull : nulls = true -> forall d n f, find_desc t d n = Some f -> is_repeated f = true -> null_field t f = JOk None.
  Hypothesis Hts : forall s a b, jx_parse_timestamp E s = Some (a, b) -> i64_ok a = true /\ i32_ok b = true.
  Hypothesis Hdu : forall s a b, jx_parse_duration E s = Some (a, b) -> i64_ok a = true /\ i32_ok b = true.
  Hypothesis Hpres : oneof_presenceb t = true.

  Lemma given_free m f : find_desc t (dm_desc m) (fd_number f) = Some f -> all_set m ->
    (oneof_given t m f = false <-> free m f).
  Proof.
    intros Hf Ha. unfold oneof_given, free. destruct (fd_oneof f) as [nums|] eqn:Eo; [|split; [intros _ nums n H; discriminate|reflexivity]].
    assert (Hg : get_field t (dm_desc m) (fd_number f) = Some f).
    { unfold find_desc in Hf. destruct (get_field t (dm_desc m) (fd_number f)); [exact Hf|].
      rewrite (get_ext_oneof _ _ _ _ (proj1 Hw) Hf) in Eo. discriminate. }
    assert (K : forall n, In n nums -> (has_field_by_number t m n = true <-> bt_get n (dm_fields m) <> None)).
    { intros n Hn. destruct (oneof_siblings _ _ _ _ _ _ (proj1 Hw) Hg Eo Hn) as (g & G1 & G2).
      unfold has_field_by_number, has_field, fs_has. rewrite G1.
      assert (Ng : fd_number g = n) by (eapply get_field_number; [exact (proj1 Hw)|exact G1]). rewrite Ng.
      unfold fs_get_value. destruct (bt_get n (dm_fields m)) as [s|] eqn:Eb; [|split; [discriminate|congruence]].
      destruct (Ha _ _ Eb) as [v ->]. unfold fd_has. rewrite (oneof_presence _ _ _ _ _ (proj1 Hw) Hpres G1 G2). split; [discriminate|reflexivity]. }
    split.
    - intros H nums' n [= <-] Hn. destruct (bt_get n (dm_fields m)) eqn:Eb; [|reflexivity]. exfalso.
      assert (X : existsb (fun n0 => has_field_by_number t m n0) nums = true).
      { apply existsb_exists. exists n. split; [exact Hn|]. apply K; [exact Hn|congruence]. }
      congruence.
    - intros H. destruct (existsb _ nums) eqn:Ex; [|reflexivity]. apply existsb_exists in Ex. destruct Ex as (n & Hn & Hh).
      apply K in Hh; [|exact Hn]. exfalso. apply Hh. exact (H nums n eq_refl Hn).
  Qed.
  Lemma free_set m f x g : find_desc t (dm_desc m) (fd_number f) = Some f -> find_desc t (dm_desc m) (fd_number g) = Some g ->
    free m f ->
    (free (set_extension m f x) g <-> free m g /\ ~ same_oneof g f).
  Proof.
    intros Hf Hg Hfree. destruct m as [d fs]. unfold free, set_extension, same_oneof. cbn [with_fields dm_fields] in *. split.
    - intros H. split.
      + intros nums n Ho Hn. specialize (H nums n Ho Hn). rewrite set_get in H. destruct (n =? fd_number f); [discriminate|].
        destruct (siblingb f n) eqn:Es; [|exact H]. apply siblingb_ok in Es. destruct Es as (nums' & O' & In' & _). exact (Hfree _ _ O' In').
      + intros (nums & Ho & Hn). specialize (H nums _ Ho Hn). rewrite set_get, N.eqb_refl in H. discriminate.
    - intros [H1 H2] nums n Ho Hn. rewrite set_get. destruct (N.eqb_spec n (fd_number f)) as [->|_].
      + exfalso. apply H2. eauto.
      + destruct (siblingb f n); [reflexivity|]. exact (H1 nums n Ho Hn).
  Qed.
  Lemma all_set_set m f x : all_set m -> all_set (set_extension m f x).
  Proof.
    intros H n s. destruct m as [d fs]. unfold set_extension. cbn [with_fields dm_fields]. rewrite set_get.
    destruct (n =? fd_number f); [intros [= <-]; eauto|]. destruct (siblingb f n); [discriminate|]. apply H.
  Qed.
  Lemma same_oneof_symm d f g : find_desc t d (fd_number f) = Some f -> find_desc t d (fd_number g) = Some g -> same_oneof g f -> same_oneof f g.
  Proof.
    intros Hf Hg (nums & Ho & Hn).
    assert (G : get_field t d (fd_number g) = Some g).
    { unfold find_desc in Hg. destruct (get_field t d (fd_number g)); [exact Hg|].
      rewrite (get_ext_oneof _ _ _ _ (proj1 Hw) Hg) in Ho. discriminate. }
    destruct (oneof_siblings _ _ _ _ _ _ (proj1 Hw) G Ho Hn) as (f' & F1 & F2).
    unfold find_desc in Hf. rewrite F1 in Hf. injection Hf as ->. exists nums. split; [exact F2|].
    eapply oneof_self; [exact (proj1 Hw)|exact G|exact Ho].
  Qed.

  Definition readers (l : list (str * json)) : list (str * reader) := map (fun kv => (fst kv, fun b g' => de E t deny (snd kv) b g')) l.

  Lemma member_desc d key f : member_field t d key = Some f -> find_desc t d (fd_number f) = Some f.
  Proof.
    unfold member_field. destruct (json_field t d key) as [g|] eqn:Ej.
    - intros [= <-]. eapply json_field_desc; eassumption.
    - apply (get_ext_json_desc t Hw Hx).
  Qed.
  Lemma reads_desc d l gs : reads E t deny d l gs -> Forall (fun fx => find_desc t d (fd_number (fst fx)) = Some (fst fx)) gs.
  Proof.
    intros H. induction H; auto. constructor; auto. cbn. apply stands_for_spec in H; [|apply Hw]. eapply member_desc, H.
  Qed.
  Lemma members_step key j l m :
    de_members t deny (readers ((key, j) :: l)) false m =
    match member_field t (dm_desc m) key with
    | Some f => let* v := de E t deny j false (TOpt f) in
                match v with
                | None => de_members t deny (readers l) false m
                | Some x => match json_field t (dm_desc m) key with
                            | Some _ => if oneof_given t m f then JErr XOneof
                                        else let* m' := put_field t m f x in de_members t deny (readers l) false m'
                            | None => de_members t deny (readers l) false (set_extension m f x)
                            end
                end
    | None => if deny then JErr (XUnknownField key) else de_members t deny (readers l) false m
    end.
  Proof.
    unfold readers, member_field. cbn [map de_members fst snd]. destruct (json_field t (dm_desc m) key); [reflexivity|].
    destruct (get_ext_by_json t (dm_desc m) key); reflexivity.
  Qed.

  Lemma members_spec d l : json_okb nulls (JObj l) = true -> forall m m', msg_ok t m -> dm_desc m = d -> all_set m ->
    (de_members t deny (readers l) false m = JOk m' <->
     exists gs, reads E t deny d l gs /\ oneofs_once gs /\ Forall (fun fx => free m (fst fx)) gs /\ m' = assign m gs).
  Proof.
    induction l as [|[key j] l IH]; intros Hj m m' Hm Hd Ha.
    { cbn. split.
      - intros [= <-]. exists []. repeat split; constructor.
      - intros (gs & Hr & _ & _ & ->). inversion Hr; subst. reflexivity. }
    cbn [json_okb forallb fst snd] in Hj. apply andb_true_iff in Hj. destruct Hj as [Hj1 Hj2]. rewrite !andb_true_iff in Hj1.
    destruct Hj1 as [[[_ _] K3] K4]. specialize (IH Hj2). rewrite members_step, Hd.
    destruct (member_field t d key) as [f|] eqn:Ef.
    - pose proof (member_desc _ _ _ Ef) as Fd. assert (Sf : stands_for t d key (Some f)) by (now apply stands_for_spec; [apply Hw|]).
      assert (Only : forall o, stands_for t d key o -> o = Some f) by (intros o Ho; apply stands_for_spec in Ho; [congruence|apply Hw]).
      assert (OnlyG : forall o, gives E t deny f j o -> de E t deny j false (TOpt f) = JOk o) by (intros o; apply gives_spec).
      pose proof (de_member_good E t deny nulls Hw Hx Hnull Hts Hdu j false f K4 K3 (ex_intro _ d Fd)) as G.
      destruct (de E t deny j false (TOpt f)) as [[x|]|e| |] eqn:Ej; cbn [jbind] in *; try contradiction.
      + (* a value *)
        cbn in G. assert (Fd' : find_desc t (dm_desc m) (fd_number f) = Some f) by (rewrite Hd; exact Fd).
        destruct (put_field_good t Hw m f x Hm Fd' G) as [P1 P2].
        assert (Eq : match json_field t d key with
                     | Some _ => if oneof_given t m f then JErr XOneof else let* m'0 := put_field t m f x in de_members t deny (readers l) false m'0
                     | None => de_members t deny (readers l) false (set_extension m f x)
                     end = if oneof_given t m f then JErr XOneof else de_members t deny (readers l) false (set_extension m f x)).
        { rewrite P1. cbn [jbind]. destruct (json_field t d key) eqn:Ejf; [reflexivity|]. unfold member_field in Ef. rewrite Ejf in Ef.
          unfold oneof_given. pose proof (get_ext_json_desc t Hw Hx _ _ _ Ef) as Q.
          assert (O : fd_oneof f = None).
          { unfold get_ext_by_json in Ef. apply find_some in Ef. destruct Ef as [Hin _].
            destruct (msg_exts_inv _ _ _ (proj1 Hw) Hin) as (? & ? & ? & _ & _ & _ & _ & -> & _). reflexivity. }
          now rewrite O. }
        rewrite Eq. clear Eq. pose proof (given_free m f Fd' Ha) as GF.
        destruct (oneof_given t m f) eqn:Eg.
        * split; [discriminate|]. intros (gs & Hr & _ & Hfr & _). exfalso. inversion Hr; subst.
          -- match goal with H : stands_for _ _ _ (Some _) |- _ => apply Only in H; injection H as -> end.
             inversion Hfr; subst. cbn in *. assert (true = false) by (now apply GF). discriminate.
          -- match goal with H : stands_for _ _ _ (Some _) |- _ => apply Only in H; injection H as -> end.
             match goal with H : gives _ _ _ _ _ _ |- _ => apply OnlyG in H; congruence end.
          -- match goal with H : stands_for _ _ _ None |- _ => apply Only in H; discriminate end.
        * assert (Fr : free m f) by (now apply GF).
          assert (Dall : forall gs, reads E t deny d l gs -> Forall (fun fx => find_desc t d (fd_number (fst fx)) = Some (fst fx)) gs).
          { intros gs. apply reads_desc. }
          rewrite (IH (set_extension m f x) m' P2 Hd (all_set_set _ _ _ Ha)). split.
          -- intros (gs & R1 & R2 & R3 & ->). exists ((f, x) :: gs). pose proof (Dall gs R1) as Dg.
             assert (Both : Forall (fun fx => free m (fst fx) /\ ~ same_oneof (fst fx) f) gs).
             { apply Forall_forall. intros fx Hin. rewrite Forall_forall in R3, Dg. apply (free_set m f x (fst fx) Fd'); auto. rewrite Hd. auto. }
             split; [|split; [|split; [|reflexivity]]].
             ++ econstructor; [exact Sf| |exact R1]. now apply gives_spec.
             ++ constructor; [|exact R2]. apply Forall_forall. intros fx Hin. rewrite Forall_forall in Both, Dg. cbn. intros Hs.
                apply (proj2 (Both fx Hin)). apply (same_oneof_symm d (fst fx) f); auto.
             ++ constructor; [exact Fr|]. eapply Forall_impl; [|exact Both]. tauto.
          -- intros (gs0 & Hr & R2 & R3 & ->). inversion Hr as [|? ? ? f' x' gs S' G' R1|? ? ? f' gs S' G' R1|? ? ? gs S' G' R1]; subst.
             ++ apply Only in S'. injection S' as ->. apply OnlyG in G'. injection G' as ->. exists gs.
                inversion R2 as [|? ? R2a R2b]; subst. inversion R3 as [|? ? R3a R3b]; subst. pose proof (Dall gs R1) as Dg.
                split; [exact R1|]. split; [exact R2b|]. split; [|reflexivity].
                apply Forall_forall. intros fx Hin. rewrite Forall_forall in R2a, R3b, Dg. apply (free_set m f _ (fst fx) Fd'); auto.
                split; [auto|]. intros Hs. apply (R2a fx Hin). cbn. apply (same_oneof_symm (dm_desc m) f (fst fx)); auto.
             ++ apply Only in S'. injection S' as ->. apply OnlyG in G'. discriminate.
             ++ apply Only in S'. discriminate.
      + rewrite (IH m m' Hm Hd Ha). split.
        * intros (gs & R1 & R2 & R3 & R4). exists gs. split; [|auto]. eapply reads_unset; [exact Sf| |exact R1]. now apply gives_spec.
        * intros (gs & Hr & R). exists gs. split; [|exact R]. inversion Hr as [|? ? ? f' x' gs' S' G' R1|? ? ? f' gs' S' G' R1|? ? ? gs' S' G' R1]; subst; auto.
          apply Only in S'. injection S' as ->. apply OnlyG in G'. discriminate.
      + split; [discriminate|]. intros (gs & Hr & _). exfalso.
        inversion Hr as [|? ? ? f' x' gs' S' G' R1|? ? ? f' gs' S' G' R1|? ? ? gs' S' G' R1]; subst; apply Only in S'; try discriminate; injection S' as ->; apply OnlyG in G'; discriminate.
    - assert (Only : forall o, stands_for t d key o -> o = None) by (intros o Ho; apply stands_for_spec in Ho; [congruence|apply Hw]).
      assert (Sn : stands_for t d key None) by (now apply stands_for_spec; [apply Hw|]).
      destruct deny eqn:Edeny.
      + split; [discriminate|]. intros (gs & Hr & _). exfalso.
        inversion Hr as [|? ? ? f' x' gs' S' G' R1|? ? ? f' gs' S' G' R1|? ? ? gs' S' G' R1]; subst; try discriminate; apply Only in S'; discriminate.
      + rewrite (IH m m' Hm Hd Ha). split.
        * intros (gs & R1 & R). exists gs. split; [|exact R]. now apply reads_unknown.
        * intros (gs & Hr & R). exists gs. split; [|exact R].
          inversion Hr as [|? ? ? f' x' gs' S' G' R1|? ? ? f' gs' S' G' R1|? ? ? gs' S' G' R1]; subst; auto; apply Only in S'; discriminate.
  Qed.

  (** without clashes each field holds what it was given last *)
  Lemma assign_get gs : oneofs_once gs -> forall m, Forall (fun fx => find_desc t (dm_desc m) (fd_number (fst fx)) = Some (fst fx)) gs ->
    Forall (fun fx => free m (fst fx)) gs -> forall n,
    bt_get n (dm_fields (assign m gs)) = match last_given n gs with Some x => Some (SVal x) | None => bt_get n (dm_fields m) end.
  Proof.
    induction gs as [|[f x] gs IH]; intros Ho m Hd Hf n; [reflexivity|].
    inversion Ho as [|? ? O1 O2]; subst. inversion Hd as [|? ? D1 D2]; subst. inversion Hf as [|? ? F1 F2]; subst. cbn [fst snd] in *.
    assert (Ds : dm_desc (set_extension m f x) = dm_desc m) by (destruct m; reflexivity).
    change (assign m ((f, x) :: gs)) with (assign (set_extension m f x) gs). rewrite IH; [|exact O2|rewrite Ds; exact D2|].
    - cbn [last_given]. destruct (last_given n gs) as [y|]; [reflexivity|]. destruct m as [d fs]. unfold set_extension. cbn [with_fields dm_fields].
      rewrite set_get, (N.eqb_sym n). destruct (fd_number f =? n); [reflexivity|]. destruct (siblingb f n) eqn:Es; [|reflexivity].
      apply siblingb_ok in Es. destruct Es as (nums & E1 & E2 & _). symmetry. exact (F1 nums n E1 E2).
    - apply Forall_forall. intros fx Hin. rewrite Forall_forall in O1, D2, F2. apply (free_set m f x (fst fx)); auto.
      split; [auto|]. intros Hs. apply (O1 fx Hin). apply (same_oneof_symm (dm_desc m) f (fst fx)); auto.
  Qed.
  Lemma assign_ok gs : forall m, msg_ok t m -> Forall (fun fx => find_desc t (dm_desc m) (fd_number (fst fx)) = Some (fst fx) /\ ok_field t (fst fx) (snd fx) = true) gs ->
    msg_ok t (assign m gs) /\ dm_desc (assign m gs) = dm_desc m.
  Proof.
    induction gs as [|[f x] gs IH]; intros m Hm Hg; [split; auto|]. inversion Hg as [|? ? [D1 D2] G2]; subst. cbn [fst snd] in *.
    destruct (put_field_good t Hw m f x Hm D1 D2) as [_ O]. change (assign m ((f, x) :: gs)) with (assign (set_extension m f x) gs).
    assert (Ds : dm_desc (set_extension m f x) = dm_desc m) by (destruct m; reflexivity).
    destruct (IH (set_extension m f x) O) as [I1 I2]; [rewrite Ds; exact G2|]. split; [exact I1|congruence].
  Qed.
End Members.

Lemma readable_hyps E t j : readable E t j -> exists nulls, json_okb nulls j = true /\
  (nulls = true -> forall d n f, find_desc t d n = Some f -> is_repeated f = true -> null_field t f = JOk None).
Proof.
  intros (Hw & _ & _ & _ & [H|[H Hn]]).
  - exists false. split; [exact H|discriminate].
  - exists true. split; [exact H|]. intros _ d n f Hf Hr. apply no_null. eapply no_null_lists; try eassumption. apply Hw.
Qed.
Lemma from_json_members E t deny d l : wkt_of t d = None ->
  from_json E t deny d (JObj l) = de_members t deny (readers E t deny l) false (new_msg d).
Proof.
  intros Hk. unfold from_json. cbn [de target_goal de_obj]. rewrite Hk. unfold readers. destruct (de_members _ _ _ _ _); reflexivity.
Qed.

(** ** C48 *)

(** An object is read as a message of an ordinary type exactly when every
    member can be read and no oneof is given twice; the message then holds for
    each field what was given last. *)
Theorem C48_object : forall E t deny d l m, readable E t (JObj l) -> (d < length (t_messages t))%nat -> wkt_of t d = None ->
  from_json E t deny d (JObj l) = JOk m <->
  exists gs, reads E t deny d l gs /\ oneofs_once gs /\ dm_desc m = d /\ bt_sorted (dm_fields m) /\
    forall n, bt_get n (dm_fields m) = option_map SVal (last_given n gs).
Proof.
  intros E t deny d l m HR Hd Hk. destruct (readable_hyps _ _ _ HR) as (nulls & Hj & Hnull). destruct HR as (Hw & Hx & He & Hp & _).
  rewrite (from_json_members E t deny d l Hk).
  assert (X := exts_distinct _ Hx).
  assert (Hts : forall s a b, jx_parse_timestamp E s = Some (a, b) -> i64_ok a = true /\ i32_ok b = true) by (intros s a b H; apply (He s); auto).
  assert (Hdu : forall s a b, jx_parse_duration E s = Some (a, b) -> i64_ok a = true /\ i32_ok b = true) by (intros s a b H; apply (He s); auto).
  assert (A0 : all_set (new_msg d)) by (intros n s H; discriminate H).
  rewrite (members_spec E t deny nulls Hw X Hnull Hts Hdu Hp d l Hj (new_msg d) m (new_msg_ok _ _ Hd) eq_refl A0).
  assert (Fr : forall gs, Forall (fun fx : fdl * value => free (new_msg d) (fst fx)) gs).
  { intros gs. apply Forall_forall. intros fx _ nums n _ _. reflexivity. }
  assert (Good : forall gs, reads E t deny d l gs -> Forall (fun fx => find_desc t d (fd_number (fst fx)) = Some (fst fx) /\ ok_field t (fst fx) (snd fx) = true) gs).
  { intros gs H. clear - H Hw X Hj Hnull Hts Hdu. induction H; auto; cbn [json_okb forallb fst snd] in Hj; apply andb_true_iff in Hj; destruct Hj as [Hj1 Hj2]; auto.
    rewrite !andb_true_iff in Hj1. destruct Hj1 as [[[_ _] K3] K4]. constructor; [|auto]. cbn.
    apply stands_for_spec in H; [|apply Hw]. pose proof (member_desc t Hw X _ _ _ H) as Fd. split; [exact Fd|].
    apply gives_spec in H0. pose proof (de_member_good E t deny nulls Hw X Hnull Hts Hdu j false f K4 K3 (ex_intro _ d Fd)) as G.
    rewrite H0 in G. exact G. }
  assert (Get : forall gs, reads E t deny d l gs -> oneofs_once gs -> forall n, bt_get n (dm_fields (assign (new_msg d) gs)) = option_map SVal (last_given n gs)).
  { intros gs R1 R2 n. rewrite (assign_get t Hw gs R2 (new_msg d)); [destruct (last_given n gs); reflexivity| |apply Fr].
    eapply Forall_impl; [|exact (Good gs R1)]. intros fx [H _]. exact H. }
  split.
  - intros (gs & R1 & R2 & _ & ->). exists gs. destruct (assign_ok t Hw gs (new_msg d) (new_msg_ok _ _ Hd) (Good gs R1)) as [O1 O2].
    split; [exact R1|]. split; [exact R2|]. split; [exact O2|]. split; [exact (mo_sorted _ _ O1)|]. now apply Get.
  - intros (gs & R1 & R2 & Dm & Sm & Gm). exists gs. split; [exact R1|]. split; [exact R2|]. split; [apply Fr|].
    destruct (assign_ok t Hw gs (new_msg d) (new_msg_ok _ _ Hd) (Good gs R1)) as [O1 O2].
    pose proof (Get gs R1 R2) as G. destruct m as [dm fs], (assign (new_msg d) gs) as [da fa]. cbn [dm_desc dm_fields new_msg] in *. subst. f_equal.
    apply bt_ext; [exact Sm|exact (mo_sorted _ _ O1)|]. intros n. now rewrite Gm, G.
Qed.
Print Assumptions C48_object.

(** A member holding a message is read as a document of its own, by the same
    rules. *)
Theorem C48_nested : forall E t deny f d' j o, fd_is_list f = false -> fd_is_map f = false -> kind_msg (fd_kind f) = Some d' -> j <> JNull ->
  gives E t deny f j o <->
  de E t deny j false (TGoal (GMsg d')) = JOk o.
Proof.
  intros E t deny f d' j o Hl Hm Hk Hj. rewrite gives_spec, de_opt by exact Hj. unfold field_goal. rewrite Hl, Hm. unfold kind_goal. rewrite Hk. reflexivity.
Qed.

(** Members that stand for nothing are an error when asked for, and otherwise
    change nothing: neither the message nor the error. *)
Theorem C48_unknown_denied : forall E t d pre key v post, readable E t (JObj (pre ++ (key, v) :: post)) -> (d < length (t_messages t))%nat ->
  wkt_of t d = None -> stands_for t d key None ->
  exists e, from_json E t true d (JObj (pre ++ (key, v) :: post)) = JErr e.
Proof.
  intros E t d pre key v post HR Hd Hk Hs.
  assert (T : match from_json E t true d (JObj (pre ++ (key, v) :: post)) with JOk _ => False | JErr _ => True | _ => False end).
  { pose proof (fun m => C48_object E t true d _ m HR Hd Hk) as C.
    destruct HR as (Hw & Hx & He & Hp & Hj). pose proof (C53_json_reading_comes_back E t true d _ Hw Hx He Hd Hj) as G.
    destruct (from_json E t true d (JObj (pre ++ (key, v) :: post))) as [m|e| |]; auto.
    destruct (proj1 (C m) eq_refl) as (gs & R & _). clear - R Hs Hw. revert gs R.
    induction pre as [|[k x] pre IH]; intros gs R; cbn [app] in R; inversion R; subst; eauto; try discriminate.
    all: match goal with H : stands_for _ _ _ (Some _) |- _ => apply stands_for_spec in H; [|apply Hw]; apply stands_for_spec in Hs; [|apply Hw]; congruence end. }
  destruct (from_json E t true d (JObj (pre ++ (key, v) :: post))) as [m|e| |]; try contradiction. eauto.
Qed.
Print Assumptions C48_unknown_denied.
Lemma de_members_app t deny l1 l2 buf m : de_members t deny (l1 ++ l2) buf m = let* m' := de_members t deny l1 buf m in de_members t deny l2 buf m'.
Proof.
  revert m. induction l1 as [|[k r] l1 IH]; intros m; cbn [app de_members]; [reflexivity|].
  destruct (json_field t (dm_desc m) k) as [f|].
  - destruct (r buf (TOpt f)) as [[x|]|e| |]; cbn [jbind]; try reflexivity; [|apply IH]. destruct (oneof_given t m f); [reflexivity|].
    destruct (put_field t m f x); cbn [jbind]; try reflexivity. apply IH.
  - destruct (get_ext_by_json t (dm_desc m) k) as [f|].
    + destruct (r buf (TOpt f)) as [[x|]|e| |]; cbn [jbind]; try reflexivity; apply IH.
    + destruct deny; [reflexivity|apply IH].
Qed.
Lemma put_desc t m f x m' : put_field t m f x = JOk m' -> dm_desc m' = dm_desc m.
Proof.
  unfold put_field, set_field, try_set_field. destruct (is_valid_for t f x); [|discriminate]. intros [= <-]. destruct m; reflexivity.
Qed.
Lemma de_members_desc t deny l buf : forall m m', de_members t deny l buf m = JOk m' -> dm_desc m' = dm_desc m.
Proof.
  induction l as [|[k r] l IH]; intros m m'; cbn [de_members]; [intros [= <-]; reflexivity|].
  destruct (json_field t (dm_desc m) k) as [f|].
  - destruct (r buf (TOpt f)) as [[x|]|e| |]; cbn [jbind]; try discriminate; [|apply IH]. destruct (oneof_given t m f); [discriminate|].
    destruct (put_field t m f x) eqn:Ep; cbn [jbind]; try discriminate. intros H. apply IH in H. apply put_desc in Ep. congruence.
  - destruct (get_ext_by_json t (dm_desc m) k) as [f|].
    + destruct (r buf (TOpt f)) as [[x|]|e| |]; cbn [jbind]; try discriminate; intros H; apply IH in H; rewrite H; destruct m; reflexivity.
    + destruct deny; [discriminate|apply IH].
Qed.
Lemma skipped E t deny d pre key v post : wkt_of t d = None ->
  (forall m, dm_desc m = d -> de_members t deny (readers E t deny ((key, v) :: post)) false m = de_members t deny (readers E t deny post) false m) ->
  from_json E t deny d (JObj (pre ++ (key, v) :: post)) = from_json E t deny d (JObj (pre ++ post)).
Proof.
  intros Hk H. rewrite !from_json_members by exact Hk. unfold readers in *. rewrite !map_app, !de_members_app.
  destruct (de_members t deny _ false (new_msg d)) as [m|e| |] eqn:Em; cbn [jbind]; try reflexivity. apply H.
  rewrite (de_members_desc _ _ _ _ _ _ Em). reflexivity.
Qed.
Theorem C48_unknown_ignored : forall E t d pre key v post, wf t -> wkt_of t d = None -> stands_for t d key None ->
  from_json E t false d (JObj (pre ++ (key, v) :: post)) = from_json E t false d (JObj (pre ++ post)).
Proof.
  intros E t d pre key v post Hw Hk Hs. apply skipped; [exact Hk|]. intros m Hm. rewrite members_step, Hm.
  apply stands_for_spec in Hs; [|apply Hw]. now rewrite Hs.
Qed.
Print Assumptions C48_unknown_ignored.

(** null leaves a field as if the member were not there, unless the field is a
    Value or a NullValue: those get it as their value. *)
Theorem C48_null_unset : forall E t deny d pre key f post, wf t -> wkt_of t d = None ->
  stands_for t d key (Some f) -> takes_null t f = false ->
  from_json E t deny d (JObj (pre ++ (key, JNull) :: post)) = from_json E t deny d (JObj (pre ++ post)).
Proof.
  intros E t deny d pre key f post Hw Hk Hs Hn. apply skipped; [exact Hk|]. intros m Hm. rewrite members_step, Hm.
  apply stands_for_spec in Hs; [|apply Hw]. rewrite Hs. cbn [de]. rewrite (no_null t f Hn). reflexivity.
Qed.
Print Assumptions C48_null_unset.
Theorem C48_null_value : forall E t deny f d' f1, wf t -> fd_kind f = KMessage d' -> standard t d' 5 -> takes_null t f = true ->
  get_field t d' 1 = Some f1 ->
  exists m, gives E t deny f JNull (Some (VMessage m)) /\ dm_desc m = d' /\ ok_msg t m = true /\
    has_field t m f1 = true /\ get_field_value t m f1 = VEnum 0.
Proof.
  intros E t deny f d' f1 Hw Hf Hs Hn H1.
  assert (Hok : ok_msg wkt_tables (DM 5 [(1, SVal (VEnum 0))]) = true) by (vm_compute; reflexivity).
  assert (Hdp : (msg_depth (DM 5 [(1%N, SVal (VEnum 0))]) <= 100)%nat) by (vm_compute; lia).
  assert (Hfit : fits wkt_tables (DM 5 [(1, SVal (VEnum 0))])).
  { intros b Hb. vm_compute in Hb. injection Hb as <-. vm_compute. reflexivity. }
  destruct (made t d' 5 _ Hw Hs Hok eq_refl Hdp Hfit) as (m & M1 & M2 & M3 & _ & M5).
  exists m. destruct (get_field wkt_tables 5 1) as [g|] eqn:Eg; [|vm_compute in Eg; discriminate Eg].
  destruct (M5 1 g f1 Eg H1) as [A B]. vm_compute in Eg. injection Eg as <-.
  split; [|split; [exact M2|split; [exact M3|split; [rewrite A; vm_compute; reflexivity|apply B; vm_compute; reflexivity]]]].
  apply gives_spec. cbn [de]. unfold null_field, takes_null in *. rewrite Hf in *. cbn [kind_msg]. rewrite Hn. exact M1.
Qed.
Print Assumptions C48_null_value.
Theorem C48_null_enum : forall E t deny f e, fd_kind f = KEnum e -> takes_null t f = true -> gives E t deny f JNull (Some (VEnum 0)).
Proof. intros. eapply gives_null_enum; eassumption. Qed.

(** Two members of one oneof, or one member twice, are an error. *)
Theorem C48_oneof_once : forall E t deny d pre k1 v1 mid k2 v2 post f g x y,
  readable E t (JObj (pre ++ (k1, v1) :: mid ++ (k2, v2) :: post)) -> (d < length (t_messages t))%nat -> wkt_of t d = None ->
  stands_for t d k1 (Some f) -> gives E t deny f v1 (Some x) ->
  stands_for t d k2 (Some g) -> gives E t deny g v2 (Some y) -> same_oneof f g ->
  exists e, from_json E t deny d (JObj (pre ++ (k1, v1) :: mid ++ (k2, v2) :: post)) = JErr e.
Proof.
  intros E t deny d pre k1 v1 mid k2 v2 post f g x y HR Hd Hk S1 G1 S2 G2 So.
  assert (Inv : forall k v f' x' l gs, wf t -> stands_for t d k (Some f') -> gives E t deny f' v (Some x') -> reads E t deny d ((k, v) :: l) gs ->
    exists gs', gs = (f', x') :: gs' /\ reads E t deny d l gs').
  { intros k v f' x' l gs Hw S G R. apply stands_for_spec in S; [|apply Hw]. apply gives_spec in G.
    inversion R as [|? ? ? f2 x2 gs2 S' G' R1|? ? ? f2 gs2 S' G' R1|? ? ? gs2 S' G' R1]; subst; apply stands_for_spec in S'; try apply Hw; try congruence.
    - rewrite S in S'. injection S' as <-. apply gives_spec in G'. rewrite G in G'. injection G' as <-. eauto.
    - rewrite S in S'. injection S' as <-. apply gives_spec in G'. congruence. }
  assert (Skip : forall l1 l2 gs, reads E t deny d (l1 ++ l2) gs -> exists a b, gs = a ++ b /\ reads E t deny d l2 b).
  { induction l1 as [|[k v] l1 IH]; intros l2 gs R; [exists [], gs; auto|]. cbn [app] in R.
    inversion R as [|? ? ? f2 x2 gs2 S' G' R1|? ? ? f2 gs2 S' G' R1|? ? ? gs2 S' G' R1]; subst; destruct (IH _ _ R1) as (a & b & -> & R2); eauto.
    exists ((f2, x2) :: a), b. auto. }
  assert (T : match from_json E t deny d (JObj (pre ++ (k1, v1) :: mid ++ (k2, v2) :: post)) with JErr _ => True | _ => False end).
  { pose proof (fun m => C48_object E t deny d _ m HR Hd Hk) as C.
    destruct HR as (Hw & Hx & He & Hp & Hj). pose proof (C53_json_reading_comes_back E t deny d _ Hw Hx He Hd Hj) as G.
    destruct (from_json E t deny d (JObj _)) as [m|e| |]; auto. exfalso.
    destruct (proj1 (C m) eq_refl) as (gs & R & O & _). clear C G. destruct (Skip _ _ _ R) as (a & b & -> & R1).
    destruct (Inv _ _ _ _ _ _ Hw S1 G1 R1) as (b' & -> & R2). destruct (Skip _ _ _ R2) as (a' & c & -> & R3).
    destruct (Inv _ _ _ _ _ _ Hw S2 G2 R3) as (c' & -> & _). clear - O So. unfold oneofs_once in O.
    induction a as [|z a IH]; cbn [app] in O; inversion O as [|? ? A B]; subst; [|auto].
    rewrite Forall_forall in A. specialize (A (g, y)). cbn in A. apply A; [|exact So]. apply in_or_app. right. now left. }
  destruct (from_json E t deny d (JObj _)) as [m|e| |]; try contradiction. eauto.
Qed.
Print Assumptions C48_oneof_once.

(** A field may be named by its JSON name or by its proto name, unless another
    field has that as its JSON name. *)
Theorem C48_two_names : forall E t deny d f pre v post, wf t -> wkt_of t d = None -> In f (msg_fields t d) ->
  (forall g, In g (msg_fields t d) -> fd_json g = fd_name f -> g = f) ->
  from_json E t deny d (JObj (pre ++ (fd_name f, v) :: post)) = from_json E t deny d (JObj (pre ++ (fd_json f, v) :: post)).
Proof.
  intros E t deny d f pre v post Hw Hk Hf Hu. rewrite !from_json_members by exact Hk. unfold readers. rewrite !map_app, !de_members_app.
  destruct (de_members t deny _ false (new_msg d)) as [m|e| |] eqn:Em; cbn [jbind]; try reflexivity.
  apply de_members_desc in Em. cbn [map fst snd de_members]. rewrite Em. cbn [new_msg dm_desc].
  assert (J1 : json_field t d (fd_json f) = Some f).
  { unfold json_field. now rewrite (proj2 (by_json_spec t d (fd_json f) f (proj1 Hw)) (conj Hf eq_refl)). }
  assert (J2 : json_field t d (fd_name f) = Some f).
  { unfold json_field. destruct (get_field_by_json t d (fd_name f)) as [g|] eqn:Eg.
    - apply by_json_spec in Eg; [|apply Hw]. destruct Eg as [G1 G2]. f_equal. now apply Hu.
    - now apply by_name_spec; [apply Hw|]. }
  now rewrite J1, J2.
Qed.
Print Assumptions C48_two_names.

(** Of the fields that null can be a value of, only singular ones are meant by
    the rule; a repeated one gets the single value too. *)
Theorem C48_null_repeated_refuted : exists t d f v, wf t /\ find_desc t d (fd_number f) = Some f /\ fd_is_list f = true /\
  gives jex_externs t true f JNull (Some v) /\ ok_field t f v = false.
Proof.
  destruct (get_field jex 18 4) as [f|] eqn:Ef; [|vm_compute in Ef; discriminate Ef].
  exists jex, 18%nat, f, (VEnum 0). vm_compute in Ef. injection Ef as <-. split; [exact jex_wf|].
  split; [vm_compute; reflexivity|]. split; [reflexivity|]. split; [|reflexivity].
  eapply gives_null_enum; [reflexivity|vm_compute; reflexivity].
Qed.
Print Assumptions C48_null_repeated_refuted.

(** ** Examples *)
Example C48_applies : readable jex_externs ex (JObj [(s2b "a", JNull); (s2b "y", JStr (s2b "q")); (s2b "[ext2]", JInt 5)]).
Proof.
  split; [exact ex_wf|]. split; [vm_compute; reflexivity|]. split; [intros s a b [H|H]; discriminate H|].
  split; [vm_compute; reflexivity|]. right. split; vm_compute; reflexivity.
Qed.
Example C48_presence : oneof_presenceb jex = true. Proof. vm_compute. reflexivity. Qed.
Example C48_unknown_key : stands_for jex 18 (s2b "zz") None.
Proof. apply stands_for_spec; [apply jex_wf|]. vm_compute. reflexivity. Qed.
Example C48_key : forall f, get_field jex 18 2 = Some f -> stands_for jex 18 (s2b "my_name") (Some f) /\ stands_for jex 18 (s2b "myName") (Some f).
Proof. intros f H. rewrite <- H. split; (apply stands_for_spec; [apply jex_wf|]; vm_compute; reflexivity). Qed.
Example C48_two : from_json jex_externs jex false 18 (JObj [(s2b "x", JInt 1); (s2b "a", JInt 1); (s2b "y", JStr [])]) = JErr XOneof /\
  from_json jex_externs jex false 18 (JObj [(s2b "x", JInt 1); (s2b "x", JInt 2)]) = JErr XOneof /\
  from_json jex_externs jex false 18 (JObj [(s2b "x", JInt 1); (s2b "y", JNull); (s2b "qq", JArr [])]) = JOk (DM 18 [(7, SVal (VU32 1))]) /\
  from_json jex_externs jex true 18 (JObj [(s2b "a", JInt 1); (s2b "a", JStr (s2b "2")); (s2b "v", JNull); (s2b "n", JNull)]) =
    JOk (DM 18 [(1, SVal (VI32 2)); (5, SVal (VMessage (DM 5 [(1, SVal (VEnum 0))]))); (6, SVal (VEnum 0))]).
Proof. repeat split; vm_compute; reflexivity. Qed.
