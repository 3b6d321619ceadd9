(** C50: transcoding through bytes. *)
From Coq Require Import String.
From Verif Require Import Base BaseProofs Wire WireProofs LoopProofs Unknown UnknownProofs Value Descr
  Fields Codec DescrOk DescrProofs FieldsProofs LenProofs EncBytes MergeProofs RoundSpec RoundProofs RoundMain
  RoundSame CompatSpec Compat ExampleSchema.
Open Scope list_scope.
Open Scope N_scope.

(** transcode_to (dynamic/mod.rs:576-582) into a message of type [d'] of another
    schema; a typed message is one of the schema it was generated from *)
Definition transcode_into (t : tables) (m : dynmsg) (t' : tables) (d' : nat) : res dynmsg :=
  let! b := enc_msg t m in msg_decode t' d' b.
(** transcode_from (dynamic/mod.rs:563-569) into the existing message [m'] *)
Definition transcode_onto (t' : tables) (m' : dynmsg) (t : tables) (m : dynmsg) : dres dynmsg :=
  match enc_msg t m with
  | Ok b => msg_merge t' m' b
  | Err e => DErr e m'
  | Panic => DPanic
  | Fuel => DFuel
  end.
(** transcode_to_dynamic of a DynamicMessage (dynamic/mod.rs:590-595) is clone *)

Lemma has_field_norm t m n f : wf t -> ok_msg t m = true -> find_desc t (dm_desc m) n = Some f ->
  has_field t (norm_msg t m) f = has_field t m f.
Proof.
  intros Hw Hm Hf. apply ok_msg_iff in Hm. pose proof (find_desc_ok _ _ _ _ (proj1 Hw) Hf) as Hfo.
  rewrite <- (find_desc_number _ _ _ _ (proj1 Hw) Hf) in Hf.
  unfold has_field, fs_has, fs_get_value. rewrite norm_get by apply (mo_sorted _ _ Hm). rewrite Hf.
  destruct (bt_get (fd_number f) (dm_fields m)) as [[|v|us]|] eqn:Eb; try reflexivity.
  pose proof (mo_slots _ _ Hm _ _ Eb) as S. cbn in S. rewrite Hf in S.
  destruct (fd_has t f v) eqn:Eh; [|reflexivity]. rewrite has_norm; auto.
Qed.
Lemma ren_get_value t t' D rho m n f f' : wf t -> field_like t t' D rho f f' ->
  find_desc t (dm_desc m) n = Some f ->
  has_field t' (ren_msg rho m) f' = has_field t m f /\
  get_field_value t' (ren_msg rho m) f' = ren rho (get_field_value t m f).
Proof.
  intros Hw Hl Hf. pose proof (find_desc_ok _ _ _ _ (proj1 Hw) Hf) as Hfo.
  unfold has_field, get_field_value, fs_has, fs_get, fs_get_value. cbn [ren_msg dm_fields].
  rewrite ren_get, <- (fl_number _ _ _ _ _ _ Hl).
  destruct (bt_get (fd_number f) (dm_fields m)) as [[|v|us]|]; cbn [option_map ren_slot];
    rewrite ?(like_default t t' D rho f f' Hfo Hl); auto.
  split; [|reflexivity]. exact (like_has t t' D rho f f' v Hfo Hl).
Qed.
Lemma ren_unknown rho m : msg_unknown_fields (ren_msg rho m) = msg_unknown_fields m.
Proof.
  unfold msg_unknown_fields, fs_iter_unknown. cbn [ren_msg dm_fields]. generalize (dm_fields m) as l.
  induction l as [|[n s] l IH]; [reflexivity|]. cbn [map flat_map fst snd]. rewrite IH. now destruct s.
Qed.

(** A message transcoded into a compatible type: it has exactly the same set
    fields and extensions, each with the same value (up to the descriptors of
    nested messages and what [same] allows), the same unknown fields and the
    same encoding; transcoding the result back gives the original message. *)
Theorem C50_transcode_preserves t t' D rho m :
  wf t -> wf t' -> compatible t t' D rho -> D (dm_desc m) = true ->
  ok_msg t m = true -> zeros_kept_msg t m = true -> (msg_depth m <= 100)%nat ->
  exists b, enc_msg t m = Ok b /\
    (N.of_nat (length b) < 2 ^ 64 ->
     exists m', transcode_into t m t' (rho (dm_desc m)) = Ok m' /\
       dm_desc m' = rho (dm_desc m) /\
       (forall n f f', find_desc t (dm_desc m) n = Some f -> find_desc t' (rho (dm_desc m)) n = Some f' ->
          has_field t' m' f' = has_field t m f /\
          exists v, same t (get_field_value t m f) v /\ get_field_value t' m' f' = ren rho v) /\
       (forall n, find_desc t (dm_desc m) n = None <-> find_desc t' (rho (dm_desc m)) n = None) /\
       msg_unknown_fields m' = msg_unknown_fields m /\
       enc_msg t' m' = Ok b /\
       exists m'', transcode_into t' m' t (dm_desc m) = Ok m'' /\ same_msg t m m'').
Proof.
  intros Hw Hw' Hc Hd Hm Hz Hdp. destruct (ok_msg_enc t m Hw Hm) as (b & He & _). exists b. split; [exact He|].
  intros Hb. destruct (transcoded t t' D rho Hw Hw' Hc m b Hd Hm Hdp He Hb) as [T1 T2].
  pose proof (norm_same t Hw m Hm Hz) as Hs.
  exists (ren_msg rho (norm_msg t m)). split; [unfold transcode_into; rewrite He; exact T1|].
  split; [reflexivity|]. split; [|split; [|split; [|split; [exact T2|]]]].
  - intros n f f' Hf Hf'. destruct (like_find_some t t' D rho Hw Hw' Hc _ _ _ Hd Hf) as (f1 & E1 & Hl).
    rewrite Hf' in E1. injection E1 as <-.
    destruct (ren_get_value t t' D rho (norm_msg t m) n f f' Hw Hl Hf) as [R1 R2].
    rewrite R1, R2. split; [exact (has_field_norm t m n f Hw Hm Hf)|].
    exists (get_field_value t (norm_msg t m) f). split; [|reflexivity].
    inversion Hs as [v Hv| | |m1 m2 _ H1 H2 H3 _]; [discriminate Hv|]. subst.
    destruct (has_field t m f) eqn:Eh; [exact (H2 n f Hf Eh)|].
    rewrite <- (H3 n f Hf Eh). apply ok_msg_iff in Hm.
    pose proof Hf as Hf0. rewrite <- (find_desc_number _ _ _ _ (proj1 Hw) Hf) in Hf0.
    pose proof (stored_ok t Hw (dm_desc m) (dm_fields m) f ltac:(destruct m; exact Hm) Hf0) as Hok.
    change (fs_get t f (dm_fields m)) with (get_field_value t m f) in Hok.
    destruct (scalar (get_field_value t m f)) eqn:Es; [now constructor|].
    pose proof (find_desc_ok _ _ _ _ (proj1 Hw) Hf) as Hfo.
    assert (Hdv : get_field_value t m f = fd_default_value t f).
    { unfold has_field, fs_has, get_field_value, fs_get in *. destruct (fs_get_value (dm_fields m) (fd_number f)) as [v|] eqn:Ev;
        [|reflexivity]. apply omitted_default; auto.
      - unfold zeros_kept_msg in Hz. rewrite forallb_forall in Hz. unfold fs_get_value in Ev.
        destruct (bt_get (fd_number f) (dm_fields m)) as [[|v'|us]|] eqn:Eb; try discriminate Ev. injection Ev as ->.
        specialize (Hz _ (bt_get_In _ _ _ Eb)). cbn [fst snd] in Hz. rewrite Hf0, andb_true_iff in Hz. tauto.
      - rewrite has_omitted in Eh. now apply negb_false_iff in Eh. }
    rewrite Hdv in *. unfold fd_default_value in *.
    destruct (fd_is_list f); [constructor; constructor|].
    destruct (fd_is_map f); [constructor; [reflexivity|tauto|intros k a b' Hk; discriminate Hk]|].
    destruct (fd_default f) as [x|] eqn:Ed.
    { pose proof (fo_default _ _ Hfo _ Ed) as Hx. destruct x; try discriminate Es; discriminate Hx. }
    destruct (fd_kind f); try discriminate Es; cbn [kind_default];
      (constructor; [reflexivity|reflexivity| |reflexivity|reflexivity]); intros n0 f0 _ H0; discriminate H0.
  - intros n. pose proof (like_find t t' D rho Hw Hw' Hc (dm_desc m) n Hd) as L. unfold opt_like in L.
    destruct (find_desc t (dm_desc m) n), (find_desc t' (rho (dm_desc m)) n); split; intros X; try discriminate X; auto; contradiction.
  - rewrite ren_unknown. unfold msg_unknown_fields. cbn [norm_msg dm_fields]. apply flat_unknown.
  - exists (norm_msg t m). split; [|exact Hs]. unfold transcode_into. rewrite T2. apply decode_encode_norm; assumption.
Qed.
Print Assumptions C50_transcode_preserves.

(** Transcoding into an existing message merges: it does the same as
    transcoding the message itself, translated into the other schema, would. *)
Theorem C50_transcode_from_merges t t' D rho m m0 :
  wf t -> wf t' -> compatible t t' D rho -> D (dm_desc m) = true -> ok_msg t m = true ->
  transcode_onto t' m0 t m = transcode_onto t' m0 t' (ren_msg rho m).
Proof.
  intros Hw Hw' Hc Hd Hm. unfold transcode_onto. now rewrite (ren_encode t t' D rho Hw Hw' Hc m Hd Hm).
Qed.
Print Assumptions C50_transcode_from_merges.

(** Into an empty message it is the same as transcode_to. *)
Theorem C50_transcode_from_empty t m t' d' :
  transcode_into t m t' d' =
  match transcode_onto t' (new_msg d') t m with
  | DOk m' _ => Ok m' | DErr e _ => Err e | DPanic => Panic | DFuel => Fuel
  end.
Proof. unfold transcode_into, transcode_onto. destruct (enc_msg t m); reflexivity. Qed.
Print Assumptions C50_transcode_from_empty.

(** Every type is compatible with itself, so within one schema transcoding is
    the identity as far as the API shows. *)
Definition in_range (t : tables) (d : nat) : bool := (d <? length (t_messages t))%nat.
Lemma compatible_refl t : wf t -> compatible t t (in_range t) (fun d => d).
Proof.
  intros Hw d Hd. unfold in_range in Hd.
  assert (L : forall f, fdl_ok t f -> field_like t t (in_range t) (fun d => d) f f).
  { intros f Hf. pose proof (fo_kind _ _ Hf) as Hk. constructor; try reflexivity.
    unfold in_range. destruct (fd_kind f); cbn in *; auto. }
  split; [apply Nat.ltb_lt, Hd|]. split.
  - assert (G : forall f, In f (msg_fields t d) -> fdl_ok t f).
    { intros f Hi. apply msg_fields_get in Hi; [|apply Hw]. exact (get_field_ok _ _ _ _ (proj1 Hw) Hi). }
    induction (msg_fields t d) as [|f l IH]; constructor; [apply L, G; now left|]. apply IH. intros g Hg. apply G. now right.
  - intros n. unfold opt_like. destruct (get_ext t d n) as [f|] eqn:E; [|exact I].
    destruct (get_ext_inv _ _ _ _ (proj1 Hw) E) as (_ & _ & Hf). apply L, Hf.
Qed.
Theorem C50_transcode_same_schema t m :
  wf t -> ok_msg t m = true -> zeros_kept_msg t m = true -> (msg_depth m <= 100)%nat ->
  exists b, enc_msg t m = Ok b /\
    (N.of_nat (length b) < 2 ^ 64 ->
     exists m', transcode_into t m t (dm_desc m) = Ok m' /\ same_msg t m m' /\ enc_msg t m' = Ok b).
Proof.
  intros Hw Hm Hz Hdp. destruct (ok_msg_enc t m Hw Hm) as (b & He & _). exists b. split; [exact He|]. intros Hb.
  exists (norm_msg t m). split; [|split].
  - unfold transcode_into. rewrite He. apply decode_encode_norm; assumption.
  - apply norm_same; assumption.
  - rewrite (proj1 (enc_norm t Hw m Hm)). exact He.
Qed.
Print Assumptions C50_transcode_same_schema.

(** ** An example: the schema of ExampleSchema.v in a pool where its types come
    after another one and bear other names *)
Definition shift_kind (k : kind) : kind :=
  match k with KMessage i => KMessage (S i) | KGroup i => KGroup (S i) | _ => k end.
Definition shift_field (f : field_inner) : field_inner :=
  FieldI (f_id f) (f_number f) (s2b "j" ++ f_json f) (shift_kind (f_kind f)) (f_oneof f) (f_packed f)
    (f_presence f) (f_card f) (f_default f).
Definition shift_msg (m : message_inner) : message_inner :=
  MessageI (m_id m) (m_parent m) (m_exts m) (map shift_field (m_fields m)) (m_numbers m) (m_names m)
    (map (fun kv => (s2b "j" ++ fst kv, snd kv)) (m_jsons m)) (m_oneofs m) (m_map_entry m).
Definition shift_ext (x : ext_inner) : ext_inner :=
  ExtI (x_id x) (x_parent x) (x_number x) (x_json x) (S (x_extendee x)) (x_kind x) (x_packed x) (x_card x) (x_default x).
Definition ex' : tables :=
  Tables (MessageI (ex_id "" "Other") None [] [] [] [] [] [] false :: map shift_msg (t_messages ex))
    (t_enums ex) (map shift_ext (t_exts ex)).
Example ex'_wf : wf ex'.
Proof. split; vm_compute; reflexivity. Qed.
Example ex_compatible : compatible ex ex' (fun d => (d <? 3)%nat) S.
Proof.
  intros d Hd. apply Nat.ltb_lt in Hd.
  assert (C : forall f f', fd_number f = fd_number f' -> kind_like ex ex' (fun d => (d <? 3)%nat) S (fd_kind f) (fd_kind f') ->
    fd_card f = fd_card f' -> fd_packed f = fd_packed f' -> fd_presence f = fd_presence f' -> fd_oneof f = fd_oneof f' ->
    fd_default f = fd_default f' -> fd_is_map f = fd_is_map f' -> field_like ex ex' (fun d => (d <? 3)%nat) S f f').
  { intros. now constructor. }
  destruct d as [|[|[|d]]]; [| | |lia]; (split; [cbn; lia|]; split;
    [repeat (apply Forall2_cons; [apply C; vm_compute; auto|]); apply Forall2_nil
    |intros n; unfold opt_like, get_ext; cbn -[N.eqb];
     repeat (destruct (_ =? _); [apply C; vm_compute; auto|]); exact I]).
Qed.
Example C50_example :
  ok_msg ex ex_m = true /\ zeros_kept_msg ex ex_m = true /\
  exists m', transcode_into ex ex_m ex' 1 = Ok m' /\ transcode_into ex' m' ex 0 = Ok ex_m.
Proof.
  do 2 (split; [vm_compute; reflexivity|]). eexists. split; [vm_compute; reflexivity|]. vm_compute; reflexivity.
Qed.
