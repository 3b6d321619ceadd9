(** C60: a JSON document is read as what it means.  The specification is
    JsonMeaning.v. *)
From Coq Require Import String Permutation.
From Verif Require Import Base BaseProofs Wire Unknown Value Descr Fields Codec RoundSpec DescrOk DescrProofs FieldsProofs MergeProofs Float
  TextFormat TextParse Json JsonSer JsonNumbers JsonDe JsonWkt JsonMask JsonSafe JsonRound Prop_JsonSafe Prop_JsonRules JsonMeaning
  JsonMeaningScalars JsonMeaningB64 JsonMeaningBuf JsonMeaningMain ExampleSchema ExampleJson.
Open Scope list_scope.
Open Scope N_scope.

(** iterating over a HashMap gives each key once *)
Definition order_ok (E : json_externs) : Prop := forall l, Permutation (jx_order E l) l.

(** ** C60 *)

(** A message is read exactly if the document means it. *)
Theorem C60_reads : forall E t deny d j m, readable E t j -> order_ok E -> (d < length (t_messages t))%nat ->
  from_json E t deny d j = JOk m <-> msg_means E t deny d j m.
Proof. intros E t deny d j m HR HO Hd. now apply from_json_means. Qed.
Print Assumptions C60_reads.

(** A document has at most one meaning. *)
Theorem C60_one_meaning : forall E t deny d j m m', readable E t j -> order_ok E -> (d < length (t_messages t))%nat ->
  msg_means E t deny d j m -> msg_means E t deny d j m' -> m = m'.
Proof.
  intros E t deny d j m m' HR HO Hd H1 H2. apply (C60_reads E t deny d j) in H1; auto. apply (C60_reads E t deny d j) in H2; auto. congruence.
Qed.
Print Assumptions C60_one_meaning.

(** A document without a meaning is rejected. *)
Theorem C60_rejected : forall E t deny d j, readable E t j -> order_ok E -> (d < length (t_messages t))%nat ->
  (exists e, from_json E t deny d j = JErr e) <-> ~ exists m, msg_means E t deny d j m.
Proof.
  intros E t deny d j HR HO Hd. split.
  - intros [e He] [m Hm]. apply (C60_reads E t deny d j) in Hm; auto. congruence.
  - intros H. pose proof HR as (Hw & Hx & He & Hp & Hj).
    pose proof (C53_json_reading_comes_back E t deny d j Hw Hx He Hd Hj) as C.
    destruct (from_json E t deny d j) as [m|e| |] eqn:Ef; try contradiction; [|eauto].
    exfalso. apply H. exists m. apply C60_reads; auto.
Qed.
Print Assumptions C60_rejected.

(** A well-known message in a pool with the standard definition holds what the
    typed one does. *)
Theorem C60_carried : forall t d w x, wf t -> standard t d w -> ok_msg wkt_tables x = true -> dm_desc x = w ->
  (msg_depth x <= 100)%nat -> fits wkt_tables x ->
  exists m, (forall m', carries t d x m' <-> m' = m) /\ dm_desc m = d /\ ok_msg t m = true /\
    forall n f f', get_field wkt_tables w n = Some f -> get_field t d n = Some f' ->
      has_field t m f' = has_field wkt_tables x f /\
      (flat (get_field_value wkt_tables x f) -> zero_kept wkt_tables f (get_field_value wkt_tables x f) = true ->
       get_field_value t m f' = get_field_value wkt_tables x f).
Proof.
  intros t d w x Hw Hs Hm Hd Hdp Hf. destruct (made t d w x Hw Hs Hm Hd Hdp Hf) as (m & M1 & M2 & M3 & _ & M4).
  exists m. split; [|auto]. intros m'. rewrite <- (make_msg t d x m'), M1. split; [intros [= <-]; reflexivity|intros ->; reflexivity].
Qed.
Print Assumptions C60_carried.

(** ** What the maps of the specification hold *)

(** the value of the last member with a key *)
Fixpoint last_value {A} (k : str) (l : list (str * A)) : option A :=
  match l with
  | [] => None
  | (k', v) :: r => match last_value k r with Some y => Some y | None => if bytes_eqb k k' then Some v else None end
  end.

Lemma sorted_insert_assoc {A} k0 (k : str) (v : A) l : keys_up l -> assoc_s k0 (sorted_insert k v l) = if bytes_eqb k0 k then Some v else assoc_s k0 l.
Proof.
  induction l as [|[a x] l IH]; intros Hu; cbn [sorted_insert assoc_s]; [reflexivity|]. destruct Hu as [H1 H2].
  destruct (bytes_cmp k a) eqn:Ec; cbn [assoc_s].
  - apply bytes_cmp_eq in Ec. subst a. destruct (bytes_eqb k0 k); reflexivity.
  - reflexivity.
  - rewrite (IH H2). destruct (bytes_eqb k0 a) eqn:Ea; [|reflexivity]. apply bytes_eqb_eq in Ea. subst a.
    destruct (bytes_eqb k0 k) eqn:Ek; [|reflexivity]. apply bytes_eqb_eq in Ek. subst k. rewrite bytes_cmp_refl in Ec. discriminate.
Qed.
(** a BTreeMap: sorted, without duplicates, the last of equal keys *)
Theorem C60_sorted_members : forall A (l : list (str * A)),
  keys_up (sort_members l) /\ forall k, assoc_s k (sort_members l) = last_value k l.
Proof.
  intros A l. split; [apply sort_members_good|]. intros k. unfold sort_members.
  assert (G : forall (l acc : list (str * A)), keys_up acc ->
    assoc_s k (fold_left (fun acc kv => sorted_insert (fst kv) (snd kv) acc) l acc) = match last_value k l with Some y => Some y | None => assoc_s k acc end).
  { induction l0 as [|[a x] l0 IH]; intros acc Ha; cbn [fold_left last_value fst snd]; [reflexivity|].
    rewrite IH by (now apply sorted_insert_up). rewrite sorted_insert_assoc by exact Ha. destruct (last_value k l0); [reflexivity|]. destruct (bytes_eqb k a); reflexivity. }
  rewrite (G l [] I). destruct (last_value k l); reflexivity.
Qed.
Print Assumptions C60_sorted_members.

Lemma hash_insert_assoc {A} k0 (k : str) (v : A) l : assoc_s k0 (hash_insert k v l) = if bytes_eqb k0 k then Some v else assoc_s k0 l.
Proof.
  induction l as [|[a x] l IH]; cbn [hash_insert assoc_s]; [reflexivity|]. destruct (bytes_eqb k a) eqn:Ek; cbn [assoc_s].
  - apply bytes_eqb_eq in Ek. subst a. destruct (bytes_eqb k0 k); reflexivity.
  - rewrite IH. destruct (bytes_eqb k0 a) eqn:Ea; [|reflexivity]. apply bytes_eqb_eq in Ea. subst a.
    destruct (bytes_eqb k0 k) eqn:E2; [|reflexivity]. apply bytes_eqb_eq in E2. subst k. rewrite bytes_eqb_refl in Ek. discriminate.
Qed.
(** the members kept before @type: each key once with its last value, and the
    order in which they are read has them all *)
Theorem C60_kept_members : forall E l, order_ok E ->
  NoDup (map fst (kept l)) /\ (forall k, assoc_s k (kept l) = option_map buffered (last_value k l)) /\
  Permutation (map fst (in_order E (kept l))) (map fst (kept l)) /\
  forall kv, In kv (in_order E (kept l)) -> last_value (fst kv) l <> None /\ option_map buffered (last_value (fst kv) l) = Some (snd kv).
Proof.
  intros E l HO.
  assert (N : NoDup (map fst (kept l))).
  { unfold kept. assert (G : forall l acc, NoDup (map fst acc) -> NoDup (map fst (fold_left (fun acc kv => hash_insert (fst kv) (buffered (snd kv)) acc) l acc))).
    { induction l0 as [|[a x] l0 IH]; intros acc Ha; cbn [fold_left]; [exact Ha|]. apply IH, hash_insert_nodup, Ha. }
    apply G. constructor. }
  assert (A : forall k, assoc_s k (kept l) = option_map buffered (last_value k l)).
  { intros k. unfold kept.
    assert (G : forall l acc, assoc_s k (fold_left (fun acc kv => hash_insert (fst kv) (buffered (snd kv)) acc) l acc) =
      match last_value k l with Some y => Some (buffered y) | None => assoc_s k acc end).
    { induction l0 as [|[a x] l0 IH]; intros acc; cbn [fold_left last_value fst snd]; [reflexivity|].
      rewrite IH, hash_insert_assoc. destruct (last_value k l0); [reflexivity|]. destruct (bytes_eqb k a); reflexivity. }
    rewrite G. destruct (last_value k l); reflexivity. }
  split; [exact N|]. split; [exact A|]. split.
  - unfold in_order. apply Permutation_trans with (jx_order E (map fst (kept l))); [|apply HO].
    assert (Hin : forall k, In k (jx_order E (map fst (kept l))) -> exists v, assoc_s k (kept l) = Some v).
    { intros k Hk. apply (Permutation_in _ (HO _)) in Hk. destruct (assoc_s k (kept l)) as [v|] eqn:Ev; [eauto|]. apply assoc_none in Ev. contradiction. }
    induction (jx_order E (map fst (kept l))) as [|k ks IH]; cbn [flat_map]; [constructor|].
    destruct (Hin k (or_introl eq_refl)) as [v Hv]. rewrite Hv. cbn [app map fst]. constructor. apply IH. intros k' Hk'. apply Hin. now right.
  - intros kv Hin. apply in_order_in in Hin. rewrite A in Hin. split; [|exact Hin]. destruct (last_value (fst kv) l); [discriminate|discriminate Hin].
Qed.
Print Assumptions C60_kept_members.

(** ** Examples *)
Definition doc : json :=
  JObj [(s2b "myName", JStr (s2b "z")); (s2b "y", JStr (s2b "q")); (s2b "vs", JArr [JNull; JBool true]);
        (s2b "child", JObj [(s2b "a", JInt 3); (s2b "[ext]", JStr (s2b "7"))]); (s2b "e", JStr (s2b "ONE")); (s2b "a", JStr (s2b "+12"))].
Example C60_applies : readable jex_externs jex doc /\ order_ok jex_externs /\ (18 < length (t_messages jex))%nat.
Proof.
  split; [|split; [intros l; apply Permutation_refl|vm_compute; lia]].
  split; [exact jex_wf|]. split; [vm_compute; reflexivity|]. split; [intros s a b [H|H]; discriminate H|].
  split; [vm_compute; reflexivity|]. left. vm_compute. reflexivity.
Qed.
Example C60_example : msg_means jex_externs jex true 18 doc
  (DM 18 [(1, SVal (VI32 12)); (2, SVal (VString (s2b "z")));
          (3, SVal (VList [wvalue 1 (VEnum 0); wvalue 4 (VBool true)]));
          (8, SVal (VString (s2b "q")));
          (9, SVal (VMessage (DM 18 [(1, SVal (VI32 3)); (100, SVal (VI32 7))])));
          (11, SVal (VEnum 1))]).
Proof. destruct C60_applies as (H1 & H2 & H3). apply C60_reads; auto. Qed.
(** unknown names of enum values are ignored, unless asked *)
Example C60_ignored : msg_means jex_externs jex false 18 (JObj [(s2b "e", JStr (s2b "NOPE"))]) (DM 18 []) /\
  forall m, ~ msg_means jex_externs jex true 18 (JObj [(s2b "e", JStr (s2b "NOPE"))]) m.
Proof.
  assert (R : readable jex_externs jex (JObj [(s2b "e", JStr (s2b "NOPE"))])).
  { split; [exact jex_wf|]. split; [vm_compute; reflexivity|]. split; [intros s a b [H|H]; discriminate H|].
    split; [vm_compute; reflexivity|]. left. vm_compute. reflexivity. }
  destruct C60_applies as (_ & H2 & H3). split.
  - apply C60_reads; auto; vm_compute; reflexivity.
  - intros m H. apply C60_reads in H; auto. vm_compute in H. discriminate H.
Qed.
(** an Any whose members come before its type *)
Definition any_doc : json := JObj [(s2b "a", JInt 1); (s2b "a", JInt 2); (s2b "@type", JStr (s2b "x/M")); (s2b "e", JStr (s2b "ONE"))].
Example C60_any : exists m, msg_means jex_externs jex true 0 any_doc m.
Proof.
  assert (R : readable jex_externs jex any_doc).
  { split; [exact jex_wf|]. split; [vm_compute; reflexivity|]. split; [intros s a b [H|H]; discriminate H|].
    split; [vm_compute; reflexivity|]. left. vm_compute. reflexivity. }
  destruct C60_applies as (_ & H2 & H3).
  destruct (from_json jex_externs jex true 0 any_doc) as [m|e| |] eqn:E.
  - exists m. apply C60_reads; auto. vm_compute. lia.
  - exfalso. vm_compute in E. discriminate E.
  - exfalso. vm_compute in E. discriminate E.
  - exfalso. vm_compute in E. discriminate E.
Qed.
