(** The walk over files comes to every place once: no two calls of a visitor
    have the same file and path. *)
From Verif Require Import Base Value Descr Proto Build VisitProofs EventProofs BuildFrame BuildResolve DeclSpec DeclProofs.

Definition paths (es : list event) : list (list Z) := map ev_path es.
(** at or under entry [zn n] of the list [tag] of [path], for some [n] not below [j] *)
Definition beyond (path : list Z) (tag : Z) (j : nat) (e : event) : Prop :=
  exists n r, (j <= n)%nat /\ ev_path e = path ++ tag :: zn n :: r.

Lemma nodup_app {A} (a b : list A) : NoDup a -> NoDup b -> (forall x, In x a -> ~ In x b) -> NoDup (a ++ b).
Proof.
  induction a as [|x a IH]; cbn; intros Ha Hb D; [exact Hb|]. inversion Ha; subst. constructor.
  - rewrite in_app_iff. intros [H|H]; [contradiction|]. exact (D x (or_introl eq_refl) H).
  - apply IH; auto.
Qed.
Lemma zn_inj a c : zn a = zn c -> a = c.
Proof. unfold zn. lia. Qed.

(** one entry and the ones after it *)
Lemma step_once path tag j (a b : list event) :
  NoDup (paths a) -> Forall (fun e => exists r, ev_path e = path ++ tag :: zn j :: r) a ->
  NoDup (paths b) -> Forall (beyond path tag (S j)) b ->
  NoDup (paths (a ++ b)) /\ Forall (beyond path tag j) (a ++ b).
Proof.
  intros Na Fa Nb Fb. rewrite Forall_forall in Fa, Fb. split.
  - unfold paths. rewrite map_app. apply nodup_app; auto. intros x Hx Hy. apply in_map_iff in Hx, Hy.
    destruct Hx as [e [E He]], Hy as [e' [E' He']]. destruct (Fa _ He) as [r Er]. destruct (Fb _ He') as [n [r' [Hn Er']]].
    rewrite <- E' in E. rewrite Er, Er' in E. apply app_inv_head in E. injection E as Ez _. apply zn_inj in Ez. lia.
  - apply Forall_app. split; apply Forall_forall; intros e He.
    + destruct (Fa _ He) as [r Er]. exists j, r. auto.
    + destruct (Fb _ He) as [n [r [Hn Er]]]. exists n, r. split; [lia|exact Er].
Qed.
Lemma leaf_once {A} (g : nat -> A -> event) path tag l : (forall n a, ev_path (g n a) = path ++ [tag; zn n]) ->
  forall j, NoDup (paths (mapi j g l)) /\ Forall (beyond path tag j) (mapi j g l).
Proof.
  intros H. induction l as [|a l IH]; intros j; cbn [mapi]; [split; constructor|].
  destruct (IH (S j)) as [N F]. apply (step_once path tag j [g j a]); auto.
  - repeat constructor. intros [].
  - constructor; [|constructor]. exists []. apply H.
Qed.
(** blocks under different entries of the same place *)
Lemma tags_apart path tag tag' j j' a b : tag <> tag' -> Forall (beyond path tag j) a -> Forall (beyond path tag' j') b ->
  forall x, In x (paths a) -> ~ In x (paths b).
Proof.
  intros D Fa Fb x Hx Hy. rewrite Forall_forall in Fa, Fb. apply in_map_iff in Hx, Hy.
  destruct Hx as [e [E He]], Hy as [e' [E' He']]. destruct (Fa _ He) as [n [r [_ Er]]]. destruct (Fb _ He') as [n' [r' [_ Er']]].
  rewrite <- E' in E. rewrite Er, Er' in E. apply app_inv_head in E. injection E as Ez _. contradiction.
Qed.
Lemma beyond_longer path tag j e : beyond path tag j e -> ev_path e <> path.
Proof.
  intros [n [r [_ E]]] H. rewrite E in H. apply (f_equal (@length Z)) in H. rewrite app_length in H. cbn in H. lia.
Qed.
Lemma beyond_under path tag j e : beyond path tag j e -> exists r, ev_path e = path ++ r.
Proof. intros [n [r [_ E]]]. eauto. Qed.

Definition under_path (path : list Z) (es : list event) : Prop := Forall (fun e => exists r, ev_path e = path ++ r) es.
Lemma under_step path tag j es : under_path (path ++ [tag; zn j]) es -> Forall (fun e => exists r, ev_path e = path ++ tag :: zn j :: r) es.
Proof. apply Forall_impl. intros e [r E]. exists r. rewrite E, <- app_assoc. reflexivity. Qed.
Lemma node_once path (h : event) (rest : list event) : ev_path h = path -> NoDup (paths rest) ->
  Forall (fun e => exists tag j, beyond path tag j e) rest ->
  NoDup (paths (h :: rest)) /\ under_path path (h :: rest).
Proof.
  intros E N F. split.
  - cbn. constructor; [|exact N]. intros Hi. apply in_map_iff in Hi. destruct Hi as [e [E' He]].
    rewrite Forall_forall in F. destruct (F _ He) as [tag [j B]]. apply (beyond_longer _ _ _ _ B). congruence.
  - constructor; [exists []; rewrite app_nil_r; exact E|]. eapply Forall_impl; [|exact F]. intros e [tag [j B]]. eapply beyond_under. exact B.
Qed.

Lemma enum_once file parent path scope oe e :
  NoDup (paths (g_enum file parent path scope oe e)) /\ under_path path (g_enum file parent path scope oe e).
Proof.
  unfold g_enum, g_values. destruct (leaf_once (fun j v => EvEnumValue (path ++ [2%Z; zn j]) (join_scope scope (fst v)) file oe j v) path 2 (ep_values e) (fun _ _ => eq_refl) 0) as [N F].
  apply node_once; [reflexivity|exact N|]. eapply Forall_impl; [|exact F]. eauto.
Qed.
Lemma enums_once file parent path tag scope es : forall j oe,
  NoDup (paths (g_enums file parent path tag scope j oe es)) /\ Forall (beyond path tag j) (g_enums file parent path tag scope j oe es).
Proof.
  induction es as [|e es IH]; intros j oe; [split; constructor|]. rewrite g_enums_cons.
  destruct (IH (S j) (S oe)) as [N F]. destruct (enum_once file parent (path ++ [tag; zn j]) scope oe e) as [N1 U1].
  apply step_once; auto. apply under_step. exact U1.
Qed.
Lemma services_once file scope ss : forall j os,
  NoDup (paths (g_services file scope j os ss)) /\ Forall (beyond [] 6 j) (g_services file scope j os ss).
Proof.
  induction ss as [|s ss IH]; intros j os; [split; constructor|]. rewrite g_services_cons.
  destruct (IH (S j) (S os)) as [N F].
  assert (NoDup (paths (g_service file [6%Z; zn j] scope os s)) /\ under_path [6%Z; zn j] (g_service file [6%Z; zn j] scope os s)) as [N1 U1].
  { unfold g_service, g_methods. destruct (leaf_once (fun k m => EvMethod ([6%Z; zn j] ++ [2%Z; zn k]) (join_scope (join_scope scope (sp_name s)) (mp_name m)) file os k m) [6%Z; zn j] 2 (sp_methods s) (fun _ _ => eq_refl) 0) as [N1 F1].
    apply node_once; [reflexivity|exact N1|]. eapply Forall_impl; [|exact F1]. eauto. }
  apply (step_once [] 6 j); auto.
Qed.
Lemma exts_once file parent path tag scope ox xs :
  NoDup (paths (g_exts file parent path tag scope ox xs)) /\ Forall (beyond path tag 0) (g_exts file parent path tag scope ox xs).
Proof. unfold g_exts. apply leaf_once. reflexivity. Qed.

Lemma list_once (g : nat -> nat -> nat -> nat -> dproto -> list event) path tag ns :
  Forall (fun n => forall j om oe ox, NoDup (paths (g j om oe ox n)) /\ under_path (path ++ [tag; zn j]) (g j om oe ox n)) ns ->
  forall j om oe ox, NoDup (paths (g_list g j om oe ox ns)) /\ Forall (beyond path tag j) (g_list g j om oe ox ns).
Proof.
  induction 1 as [|n ns Hn Hns IH]; intros j om oe ox; cbn [g_list]; [split; constructor|].
  destruct (IH (S j) (om + msize n)%nat (oe + esize n)%nat (ox + xsize n)%nat) as [N F]. destruct (Hn j om oe ox) as [N1 U1].
  apply step_once; auto. apply under_step. exact U1.
Qed.

(** blocks of a message or file, in the order of the walk *)
Lemma blocks_once path (a b : list event) ta ja (tags : list Z) : NoDup (paths a) -> Forall (beyond path ta ja) a ->
  NoDup (paths b) -> Forall (fun e => exists t j, In t tags /\ beyond path t j e) b -> ~ In ta tags ->
  NoDup (paths (a ++ b)) /\ Forall (fun e => exists t j, In t (ta :: tags) /\ beyond path t j e) (a ++ b).
Proof.
  intros Na Fa Nb Fb D. rewrite Forall_forall in Fa, Fb. split.
  - unfold paths. rewrite map_app. apply nodup_app; auto. intros x Hx Hy. apply in_map_iff in Hx, Hy.
    destruct Hx as [e [E He]], Hy as [e' [E' He']]. destruct (Fa _ He) as [n [r [_ Er]]]. destruct (Fb _ He') as [t [j [Ht [n' [r' [_ Er']]]]]].
    rewrite <- E' in E. rewrite Er, Er' in E. apply app_inv_head in E. injection E as Ez _. subst. contradiction.
  - apply Forall_app. split; apply Forall_forall; intros e He.
    + exists ta, ja. split; [left; reflexivity|auto].
    + destruct (Fb _ He) as [t [j [Ht B]]]. exists t, j. split; [right; exact Ht|exact B].
Qed.
Lemma last_block path (a : list event) t j : NoDup (paths a) -> Forall (beyond path t j) a ->
  NoDup (paths a) /\ Forall (fun e => exists t' j, In t' [t] /\ beyond path t' j e) a.
Proof. intros N F. split; [exact N|]. eapply Forall_impl; [|exact F]. intros e B. exists t, j. split; [left; reflexivity|exact B]. Qed.

Lemma message_once file m : forall parent path scope om oe ox,
  NoDup (paths (g_message file parent path scope om oe ox m)) /\ under_path path (g_message file parent path scope om oe ox m).
Proof.
  induction m as [name fields exts nested enums rs os me rv IH] using dproto_ind'. intros parent path scope om oe ox.
  cbn [g_message]. set (full := join_scope scope name).
  destruct (leaf_once (fun j o => EvOneof (path ++ [8%Z; zn j]) (join_scope full o) file om j o) path 8 os (fun _ _ => eq_refl) 0) as [N1 F1].
  destruct (leaf_once (fun j f => EvField (path ++ [2%Z; zn j]) (join_scope full (fp_name f)) file om j f) path 2 fields (fun _ _ => eq_refl) 0) as [N2 F2].
  destruct (list_once (fun j om' oe' ox' n => g_message file (Some om) (path ++ [3%Z; zn j]) full om' oe' ox' n) path 3 nested) with (j := 0%nat) (om := S om) (oe := oe) (ox := ox) as [N3 F3].
  { eapply Forall_impl; [|exact IH]. intros n Hn j om' oe' ox'. apply Hn. }
  destruct (enums_once file (Some om) path 4 full enums 0 (oe + list_sum (map esize nested))) as [N4 F4].
  destruct (exts_once file (Some om) path 6 full (ox + list_sum (map xsize nested)) exts) as [N5 F5].
  destruct (last_block _ _ _ _ N5 F5) as [N6 F6].
  destruct (blocks_once path _ _ 4 0 [6%Z] N4 F4 N6 F6) as [N7 F7]; [cbn; lia|].
  destruct (blocks_once path _ _ 3 0 [4%Z; 6%Z] N3 F3 N7 F7) as [N8 F8]; [cbn; lia|].
  destruct (blocks_once path _ _ 2 0 [3%Z; 4%Z; 6%Z] N2 F2 N8 F8) as [N9 F9]; [cbn; lia|].
  destruct (blocks_once path _ _ 8 0 [2%Z; 3%Z; 4%Z; 6%Z] N1 F1 N9 F9) as [N10 F10]; [cbn; lia|].
  apply node_once; [reflexivity|exact N10|]. eapply Forall_impl; [|exact F10]. intros e [t [j [_ B]]]. eauto.
Qed.

Lemma file_once o f : NoDup (paths (g_file o f)).
Proof.
  unfold g_file, g_messages.
  destruct (list_once (fun j om oe ox n => g_message (of_file o) None ([] ++ [4%Z; zn j]) (fl_package f) om oe ox n) [] 4 (fl_messages f)) with (j := 0%nat) (om := of_msg o) (oe := of_enum o) (ox := of_ext o) as [N1 F1].
  { apply Forall_forall. intros n _ j om oe ox. apply message_once. }
  destruct (enums_once (of_file o) None [] 5 (fl_package f) (fl_enums f) 0 (of_enum o + esizes (fl_messages f))) as [N2 F2].
  destruct (services_once (of_file o) (fl_package f) (fl_services f) 0 (of_service o)) as [N3 F3].
  destruct (exts_once (of_file o) None [] 7 (fl_package f) (of_ext o + xsizes (fl_messages f)) (fl_exts f)) as [N4 F4].
  destruct (last_block _ _ _ _ N4 F4) as [N5 F5].
  destruct (blocks_once [] _ _ 6 0 [7%Z] N3 F3 N5 F5) as [N6 F6]; [cbn; lia|].
  destruct (blocks_once [] _ _ 5 0 [6%Z; 7%Z] N2 F2 N6 F6) as [N7 F7]; [cbn; lia|].
  destruct (blocks_once [] _ _ 4 0 [5%Z; 6%Z; 7%Z] N1 F1 N7 F7) as [N8 F8]; [cbn; lia|].
  apply (node_once []); [reflexivity|exact N8|]. eapply Forall_impl; [|exact F8]. intros e [t [j [_ B]]]. eauto.
Qed.

(** the place of a call: file and path *)
Definition place (e : event) : nat * list Z := (ev_file_of e, ev_path e).
Lemma files_once fs : forall o, NoDup (map place (g_files o fs)).
Proof.
  induction fs as [|f fs IH]; intros o; cbn [g_files]; [constructor|]. rewrite map_app. apply nodup_app; [|apply IH|].
  - pose proof (file_once o f) as N. unfold paths in N. eapply (NoDup_map_inv snd). rewrite map_map. exact N.
  - intros x Hx Hy. apply in_map_iff in Hx, Hy. destruct Hx as [e [E He]], Hy as [e' [E' He']].
    pose proof (g_file_ok o f) as G. rewrite Forall_forall in G. destruct (G _ He) as [Q _].
    rewrite <- visit_eq in He'. destruct (visit_ok _ _ _ He') as [k [f' [Hk [Q' _]]]]. cbn in Q'.
    assert (ev_file_of e = ev_file_of e') as S by (unfold place in *; congruence). lia.
Qed.
Lemma visit_once o fs : NoDup (map place (visit o fs)).
Proof. rewrite visit_eq. apply files_once. Qed.
Lemma visit_same o fs e e' : In e (visit o fs) -> In e' (visit o fs) -> place e = place e' -> e = e'.
Proof.
  intros He He' E. pose proof (visit_once o fs) as N. revert N He He'. generalize (visit o fs). induction l as [|a l IH]; cbn; [intros _ []|].
  intros N [-> |He] [-> |He']; inversion N; subst; auto; exfalso; [|]; match goal with Q : ~ In _ _ |- _ => apply Q end.
  - rewrite E. apply in_map. exact He'.
  - rewrite <- E. apply in_map. exact He.
Qed.
Lemma split_apart o fs done e rest e' : visit o fs = done ++ e :: rest -> In e' done -> place e' <> place e.
Proof.
  intros E Hi Q. pose proof (visit_once o fs) as N. rewrite E, map_app in N. cbn in N. apply NoDup_remove_2 in N. apply N.
  apply in_or_app. left. rewrite <- Q. apply in_map. exact Hi.
Qed.
