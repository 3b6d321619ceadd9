(** The walk does not depend on references and JSON names. *)
From Verif Require Import Base BaseProofs Value Descr Proto Build VisitProofs EventProofs DeclSpec DeclProofs RawSpec.
From Coq Require Import List ZArith NArith Lia.
Import ListNotations.
Local Open Scope list_scope.

Definition blank_event (e : event) : event :=
  match e with
  | EvFile path i f => EvFile path i (blank_file f)
  | EvMessage path full f par i m => EvMessage path full f par i (blank_message m)
  | EvField path full f m i x => EvField path full f m i (blank_field x)
  | EvOneof path full f m i n => EvOneof path full f m i n
  | EvService path full f i s => EvService path full f i (blank_service s)
  | EvMethod path full f s i m => EvMethod path full f s i (blank_method m)
  | EvEnum path full f par i x => EvEnum path full f par i x
  | EvEnumValue path full f x i v => EvEnumValue path full f x i v
  | EvExt path full f par i x => EvExt path full f par i (blank_field x)
  end.

Lemma blank_msize m : msize (blank_message m) = msize m.
Proof.
  induction m as [n fs xs ns es er os me rv IH] using dproto_ind'. cbn [blank_message msize]. f_equal. rewrite map_map.
  f_equal. apply map_ext_in. rewrite Forall_forall in IH. exact IH.
Qed.
Lemma blank_esize m : esize (blank_message m) = esize m.
Proof.
  induction m as [n fs xs ns es er os me rv IH] using dproto_ind'. cbn [blank_message esize]. f_equal. rewrite map_map.
  f_equal. apply map_ext_in. rewrite Forall_forall in IH. exact IH.
Qed.
Lemma blank_xsize m : xsize (blank_message m) = xsize m.
Proof.
  induction m as [n fs xs ns es er os me rv IH] using dproto_ind'. cbn [blank_message xsize]. rewrite map_length. f_equal. rewrite map_map.
  f_equal. apply map_ext_in. rewrite Forall_forall in IH. exact IH.
Qed.
Lemma blank_sizes (size : dproto -> nat) l : (forall m, size (blank_message m) = size m) -> list_sum (map size (map blank_message l)) = list_sum (map size l).
Proof. intros H. rewrite map_map. f_equal. apply map_ext. exact H. Qed.

Lemma mapi_map_in {A B C} (g : nat -> B -> C) (h : A -> B) l : forall i, mapi i g (map h l) = mapi i (fun n a => g n (h a)) l.
Proof. induction l; intros; cbn; f_equal; auto. Qed.
Lemma blank_fields file idx path full l : g_fields file idx path full (map blank_field l) = map blank_event (g_fields file idx path full l).
Proof. unfold g_fields. rewrite mapi_map_in, mapi_map. apply mapi_ext. reflexivity. Qed.
Lemma blank_exts file par path tag scope ox l : g_exts file par path tag scope ox (map blank_field l) = map blank_event (g_exts file par path tag scope ox l).
Proof. unfold g_exts. rewrite mapi_map_in, mapi_map. apply mapi_ext. reflexivity. Qed.
Lemma blank_oneofs file idx path full l : g_oneofs file idx path full l = map blank_event (g_oneofs file idx path full l).
Proof. unfold g_oneofs. rewrite mapi_map. apply mapi_ext. reflexivity. Qed.
Lemma blank_enums file par path tag scope l : forall j oe, g_enums file par path tag scope j oe l = map blank_event (g_enums file par path tag scope j oe l).
Proof.
  intros j oe. unfold g_enums. rewrite concat_map. f_equal. rewrite mapi_map. apply mapi_ext. intros k e. unfold g_enum. cbn [map blank_event]. f_equal.
  unfold g_values. rewrite mapi_map. apply mapi_ext. reflexivity.
Qed.
Lemma blank_services file scope l : forall j os, g_services file scope j os (map blank_service l) = map blank_event (g_services file scope j os l).
Proof.
  intros j os. unfold g_services. rewrite concat_map, mapi_map_in, mapi_map. f_equal. apply mapi_ext. intros k s. unfold g_service. cbn [map blank_event blank_service sp_name sp_methods].
  f_equal. unfold g_methods. rewrite mapi_map_in, mapi_map. apply mapi_ext. reflexivity.
Qed.
Lemma blank_list (g : nat -> nat -> nat -> nat -> dproto -> list event) l :
  Forall (fun m => forall j om oe ox, g j om oe ox (blank_message m) = map blank_event (g j om oe ox m)) l ->
  forall j om oe ox, g_list g j om oe ox (map blank_message l) = map blank_event (g_list g j om oe ox l).
Proof.
  induction 1 as [|m l H _ IH]; intros; cbn [map g_list]; [reflexivity|]. rewrite map_app, H, IH, blank_msize, blank_esize, blank_xsize. reflexivity.
Qed.
Lemma blank_g_message file m : forall par path scope om oe ox,
  g_message file par path scope om oe ox (blank_message m) = map blank_event (g_message file par path scope om oe ox m).
Proof.
  induction m as [n fs xs ns es er os me rv IH] using dproto_ind'. intros. cbn [g_message blank_message map blank_event]. f_equal.
  rewrite !map_app, <- blank_oneofs, blank_fields, <- blank_enums, blank_exts.
  rewrite (blank_sizes esize), (blank_sizes xsize) by (apply blank_esize || apply blank_xsize).
  f_equal. f_equal. f_equal. apply blank_list. eapply Forall_impl; [|exact IH]. intros m Hm j om' oe' ox'. apply Hm.
Qed.
Lemma blank_g_file o f : g_file o (blank_file f) = map blank_event (g_file o f).
Proof.
  unfold g_file. cbn [map blank_event]. f_equal. cbn [blank_file fl_package fl_messages fl_enums fl_services fl_exts].
  rewrite !map_app, blank_services, blank_exts, <- blank_enums. unfold esizes, xsizes. rewrite (blank_sizes esize), (blank_sizes xsize) by (apply blank_esize || apply blank_xsize).
  f_equal. unfold g_messages. apply blank_list. apply Forall_forall. intros m _ j om oe ox. apply blank_g_message.
Qed.
Lemma blank_off o f : off_file o (blank_file f) = off_file o f.
Proof.
  unfold off_file, msizes, esizes, xsizes. cbn [blank_file fl_messages fl_enums fl_services fl_exts].
  rewrite (blank_sizes msize), (blank_sizes esize), (blank_sizes xsize) by (apply blank_msize || apply blank_esize || apply blank_xsize). rewrite !map_length. reflexivity.
Qed.
Lemma blank_visit fs : forall o, visit o (map blank_file fs) = map blank_event (visit o fs).
Proof.
  intros o. rewrite !visit_eq. revert o. induction fs as [|f fs IH]; intros o; cbn [map g_files]; [reflexivity|].
  rewrite map_app, blank_g_file, blank_off, IH. reflexivity.
Qed.
Lemma walk_alike o fs fs' : map blank_file fs = map blank_file fs' -> map blank_event (visit o fs) = map blank_event (visit o fs').
Proof. intros H. rewrite <- !blank_visit, H. reflexivity. Qed.

(** *** The places found by the model *)
Lemma blank_nth_message ns i : nth_error (map blank_message ns) i = option_map blank_message (nth_error ns i).
Proof. apply nth_error_map. Qed.
Lemma blank_dp_nested m : dp_nested (blank_message m) = map blank_message (dp_nested m).
Proof. destruct m; reflexivity. Qed.
Lemma blank_find_msg f path : forall cur, find_msg (blank_file f) (option_map blank_message cur) path = option_map blank_message (find_msg f cur path).
Proof.
  assert (forall n path, (length path <= n)%nat -> forall cur, find_msg (blank_file f) (option_map blank_message cur) path = option_map blank_message (find_msg f cur path)) as H.
  2: { intros cur. apply (H (length path)). lia. }
  clear path. induction n as [|n IH]; intros path Hn cur.
  - destruct path; [reflexivity|cbn in Hn; lia].
  - destruct path as [|tag [|i rest]]; [reflexivity|reflexivity|]. cbn [find_msg blank_file fl_messages]. cbn [length] in Hn.
    destruct (tag =? 4)%Z.
    + rewrite nth_error_map. destruct (nth_error (fl_messages f) (Z.to_nat i)) as [m|]; cbn [option_map]; [|reflexivity]. apply (IH rest ltac:(lia) (Some m)).
    + destruct (tag =? 3)%Z; [|reflexivity]. destruct cur as [c|]; cbn [option_map]; [|reflexivity].
      rewrite blank_dp_nested, nth_error_map. destruct (nth_error (dp_nested c) (Z.to_nat i)) as [m|]; cbn [option_map]; [|reflexivity]. apply (IH rest ltac:(lia) (Some m)).
Qed.
Lemma blank_find_message f path : find_message_proto (blank_file f) path = option_map blank_message (find_message_proto f path).
Proof. exact (blank_find_msg f path None). Qed.
Lemma blank_find_enum f path : find_enum_proto (blank_file f) path = find_enum_proto f path.
Proof.
  unfold find_enum_proto. rewrite blank_find_message. destruct (find_message_proto f _) as [m|]; cbn [option_map]; [|reflexivity].
  destruct m; reflexivity.
Qed.
Lemma blank_find_message_field path : forall m, find_message_field (blank_message m) path = option_map blank_field (find_message_field m path).
Proof.
  assert (forall n path, (length path <= n)%nat -> forall m, find_message_field (blank_message m) path = option_map blank_field (find_message_field m path)) as H.
  2: { intros m. apply (H (length path)). lia. }
  clear path. induction n as [|n IH]; intros path Hn m.
  - destruct path; [reflexivity|cbn in Hn; lia].
  - destruct path as [|tag [|i rest]]; [reflexivity|reflexivity|]. cbn [length] in Hn. destruct m as [nm fs xs ns es er os me rv].
    cbn [find_message_field blank_message dp_fields dp_exts dp_nested].
    destruct (tag =? 2)%Z; [destruct rest; [apply nth_error_map|reflexivity]|]. destruct (tag =? 6)%Z; [destruct rest; [apply nth_error_map|reflexivity]|].
    destruct (tag =? 3)%Z; [|reflexivity]. rewrite nth_error_map. destruct (nth_error ns (Z.to_nat i)); cbn [option_map]; [apply IH; lia|reflexivity].
Qed.
Lemma blank_find_field f path : find_file_field (blank_file f) path = option_map blank_field (find_file_field f path).
Proof.
  destruct path as [|tag [|i rest]]; [reflexivity|reflexivity|]. cbn [find_file_field blank_file fl_messages fl_exts].
  destruct (tag =? 4)%Z.
  - rewrite nth_error_map. destruct (nth_error (fl_messages f) (Z.to_nat i)); cbn [option_map]; [apply blank_find_message_field|reflexivity].
  - destruct (tag =? 7)%Z; [|reflexivity]. destruct rest; [apply nth_error_map|reflexivity].
Qed.
Lemma blank_place f path : type_name_place (blank_file f) path = type_name_place f path.
Proof.
  destruct path as [|tag [|i rest]]; [reflexivity|reflexivity|]. unfold type_name_place. rewrite blank_find_field. destruct (tag =? 6)%Z.
  - cbn [blank_file fl_services]. rewrite nth_error_map. destruct (nth_error (fl_services f) (Z.to_nat i)); cbn [option_map]; [|reflexivity].
    destruct rest as [|t2 [|j [|z rest]]]; try reflexivity. destruct (t2 =? 2)%Z; [|reflexivity]. cbn [blank_service sp_methods]. rewrite nth_error_map.
    destruct (nth_error _ _); reflexivity.
  - destruct (find_file_field f _); reflexivity.
Qed.
