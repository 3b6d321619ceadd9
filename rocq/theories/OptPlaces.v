(** The places that the pass over custom options visits are the places where
    options can stand. *)
From Coq Require Import String.
From Verif Require Import Base Descr Proto Build VisitProofs EventProofs OptResolve OptSpec.
Open Scope list_scope.
Open Scope N_scope.

Lemma of_nat_inj i j : Z.of_nat i = Z.of_nat j -> i = j.
Proof. lia. Qed.

Lemma in_mapi_iff {A B} (g : nat -> A -> B) l i b : In b (mapi i g l) <-> exists n a, nth_error l n = Some a /\ b = g (i + n)%nat a.
Proof.
  split; [apply mapi_in|]. intros (n & a & H & ->). eapply nth_error_In with (n := n). rewrite mapi_nth, H. reflexivity.
Qed.
Lemma places_mapi {A} (g : nat -> A -> event) l i pl :
  In pl (flat_map opt_places (mapi i g l)) <-> exists n a, nth_error l n = Some a /\ In pl (opt_places (g (i + n)%nat a)).
Proof.
  rewrite in_flat_map. split.
  - intros (e & H & P). apply in_mapi_iff in H. destruct H as (n & a & H & ->). eauto.
  - intros (n & a & H & P). exists (g (i + n)%nat a). split; [|exact P]. apply in_mapi_iff. eauto.
Qed.
Lemma places_concat {A} (g : nat -> A -> list event) l i pl :
  In pl (flat_map opt_places (concat (mapi i g l))) <->
  exists n a, nth_error l n = Some a /\ In pl (flat_map opt_places (g (i + n)%nat a)).
Proof.
  rewrite in_flat_map. split.
  - intros (e & H & P). apply in_concat in H. destruct H as (x & Hx & He). apply in_mapi_iff in Hx. destruct Hx as (n & a & H & ->).
    exists n, a. split; [exact H|]. apply in_flat_map. eauto.
  - intros (n & a & H & P). apply in_flat_map in P. destruct P as (e & He & P). exists e. split; [|exact P]. apply in_concat.
    exists (g (i + n)%nat a). split; [|exact He]. apply in_mapi_iff. eauto.
Qed.
Lemma places_list (g : nat -> nat -> nat -> nat -> dproto -> list event) (Q : nat -> dproto -> Prop) pl l :
  Forall (fun a => forall j om oe ox, In pl (flat_map opt_places (g j om oe ox a)) <-> Q j a) l ->
  forall j om oe ox, In pl (flat_map opt_places (g_list g j om oe ox l)) <->
    exists n a, nth_error l n = Some a /\ Q (j + n)%nat a.
Proof.
  intros F. induction F as [|a l Ha F IH]; intros j om oe ox; cbn [g_list].
  - split; [intros []|]. intros ([|n] & a & H & _); discriminate H.
  - rewrite flat_map_app, in_app_iff, Ha, IH. split.
    + intros [H|(n & b & H & HQ)].
      * exists 0%nat, a. rewrite Nat.add_0_r. split; [reflexivity|exact H].
      * exists (S n), b. rewrite <- Nat.add_succ_comm. split; assumption.
    + intros ([|n] & b & H & HQ).
      * left. injection H as <-. rewrite Nat.add_0_r in HQ. exact HQ.
      * right. exists n, b. rewrite <- Nat.add_succ_comm in HQ. split; assumption.
Qed.

(** below the path [base] of file [file] *)
Definition below (file : nat) (base : list Z) (P : list Z -> str -> str -> Prop) (pl : place) : Prop :=
  exists path ty s, pl = (file, base ++ path, ty, s) /\ P path ty s.

Lemma enum_places file parent base scope oe e pl :
  In pl (flat_map opt_places (g_enum file parent base scope oe e)) <-> below file base (enum_options scope e) pl.
Proof.
  unfold g_enum, g_values. cbn [flat_map opt_places app]. cbn [In]. rewrite places_mapi. split.
  - intros [<-|(n & v & H & P)].
    + do 3 eexists. split; [reflexivity|constructor].
    + cbn [opt_places In] in P. destruct P as [<-|[]]. rewrite <- app_assoc. do 3 eexists. split; [reflexivity|]. now constructor.
  - intros (path & ty & s & -> & H). inversion H; subst; [now left|]. right. do 2 eexists. split; [eassumption|].
    cbn [opt_places In]. rewrite <- app_assoc. now left.
Qed.
Lemma enums_places file parent base tag scope oe es pl :
  In pl (flat_map opt_places (g_enums file parent base tag scope 0 oe es)) <->
  exists i e, nth_error es i = Some e /\ below file (base ++ [tag; Z.of_nat i]) (enum_options scope e) pl.
Proof.
  unfold g_enums. rewrite places_concat. split; intros (n & e & H & P); exists n, e; (split; [exact H|]);
    [apply enum_places in P; exact P|apply enum_places; exact P].
Qed.
Lemma exts_places file parent base tag scope ox xs pl :
  In pl (flat_map opt_places (g_exts file parent base tag scope ox xs)) <->
  exists i x, nth_error xs i = Some x /\ pl = (file, base ++ [tag; Z.of_nat i; 8%Z], s2b "google.protobuf.FieldOptions", join_scope scope (fp_name x)).
Proof.
  unfold g_exts. rewrite places_mapi. split.
  - intros (n & x & H & P). exists n, x. split; [exact H|]. cbn [opt_places In] in P. destruct P as [<-|[]]. rewrite <- app_assoc. reflexivity.
  - intros (n & x & H & ->). exists n, x. split; [exact H|]. cbn [opt_places In]. rewrite <- app_assoc. now left.
Qed.

Lemma message_places file m : forall parent base scope om oe ox pl,
  In pl (flat_map opt_places (g_message file parent base scope om oe ox m)) <->
  below file base (message_options (join_scope scope (dp_name m)) m) pl.
Proof.
  induction m as [name fs xs ns es r os me rv IH] using dproto_ind'. intros parent base scope om oe ox pl.
  cbn [g_message dp_name]. cbn [flat_map opt_places]. rewrite !flat_map_app. cbn [app In]. rewrite !in_app_iff.
  unfold g_oneofs, g_fields. rewrite !places_mapi, enums_places, exts_places.
  rewrite (places_list _ (fun j n => below file (base ++ [3%Z; zn j]) (message_options (join_scope (join_scope scope name) (dp_name n)) n) pl))
    by (eapply Forall_impl; [|exact IH]; intros n Hn; intros; apply Hn).
  clear IH. rewrite in_map_iff. cbn [dp_ext_ranges]. split.
  - intros [<-|[(i & <- & Hi)|[(n & o & H & P)|[(n & o & H & P)|[(n & o & H & P)|[(n & o & H & P)|(n & o & H & ->)]]]]]].
    + do 3 eexists. split; [reflexivity|constructor].
    + apply in_seq in Hi. destruct (nth_error r i) as [rg|] eqn:E; [|apply nth_error_None in E; lia].
      do 3 eexists. split; [reflexivity|]. econstructor. exact E.
    + destruct P as [<-|[]]. rewrite <- app_assoc. do 3 eexists. split; [reflexivity|]. cbn. now constructor.
    + destruct P as [<-|[]]. rewrite <- app_assoc. do 3 eexists. split; [reflexivity|]. cbn. now constructor.
    + destruct P as (path & ty & s & -> & P). rewrite <- app_assoc. do 3 eexists. split; [reflexivity|]. cbn. econstructor; eassumption.
    + destruct P as (path & ty & s & -> & P). rewrite <- app_assoc. do 3 eexists. split; [reflexivity|]. cbn. econstructor; eassumption.
    + do 3 eexists. split; [reflexivity|]. now constructor.
  - intros (path & ty & s & -> & P).
    inversion P as [|? ? i rg H|? ? i f H|? ? i o H|? ? i x H|? ? i e q ? ? H Q|? ? i n q ? ? H Q]; subst; cbn in *.
    + now left.
    + right. left. exists i. split; [reflexivity|]. apply in_seq. split; [lia|]. apply nth_error_Some. congruence.
    + do 3 right. left. exists i, f. split; [exact H|]. left. rewrite <- app_assoc. reflexivity.
    + do 2 right. left. exists i, o. split; [exact H|]. left. rewrite <- app_assoc. reflexivity.
    + do 6 right. exists i, x. split; [exact H|]. reflexivity.
    + do 5 right. left. exists i, e. split; [exact H|]. do 3 eexists. split; [|exact Q]. rewrite <- app_assoc. reflexivity.
    + do 4 right. left. exists i, n. split; [exact H|]. do 3 eexists. split; [|exact Q]. rewrite <- app_assoc. reflexivity.
Qed.

Lemma file_places o f pl : In pl (flat_map opt_places (g_file o f)) <-> below (of_file o) [] (file_options f) pl.
Proof.
  unfold g_file, g_services, g_messages. cbn [flat_map opt_places]. rewrite !flat_map_app. cbn [app In]. rewrite !in_app_iff.
  rewrite enums_places, exts_places, places_concat.
  rewrite (places_list _ (fun j n => below (of_file o) [4%Z; zn j] (message_options (join_scope (fl_package f) (dp_name n)) n) pl))
    by (apply Forall_forall; intros; apply message_places).
  split.
  - intros [<-|[(n & m & H & P)|[(n & e & H & P)|[(n & sv & H & P)|(n & x & H & ->)]]]].
    + do 3 eexists. split; [reflexivity|constructor].
    + destruct P as (path & ty & s & -> & P). do 3 eexists. split; [reflexivity|]. econstructor; eassumption.
    + destruct P as (path & ty & s & -> & P). do 3 eexists. split; [reflexivity|]. econstructor; eassumption.
    + unfold g_service, g_methods in P. cbn [flat_map opt_places app In] in P. rewrite places_mapi in P. destruct P as [<-|(k & md & Hk & P)].
      * do 3 eexists. split; [reflexivity|]. now constructor.
      * destruct P as [<-|[]]. do 3 eexists. split; [reflexivity|]. econstructor; eassumption.
    + do 3 eexists. split; [reflexivity|]. now constructor.
  - intros (path & ty & s & -> & P). cbn [app]. inversion P as [|i m q ? ? H Q|i e q ? ? H Q|i sv H|i sv j md H H2|i x H]; subst.
    + now left.
    + right. left. exists i, m. split; [exact H|]. do 3 eexists. split; [|exact Q]. reflexivity.
    + do 2 right. left. exists i, e. split; [exact H|]. do 3 eexists. split; [|exact Q]. reflexivity.
    + do 3 right. left. exists i, sv. split; [exact H|]. unfold g_service. cbn [flat_map opt_places app In]. left. reflexivity.
    + do 3 right. left. exists i, sv. split; [exact H|]. unfold g_service, g_methods. cbn [flat_map opt_places app In]. right. rewrite places_mapi.
      exists j, md. split; [exact H2|]. left. reflexivity.
    + do 4 right. exists i, x. split; [exact H|reflexivity].
Qed.

Theorem places_spec fs : forall o file path ty s,
  In (file, path, ty, s) (flat_map opt_places (visit o fs)) <->
  exists k f, nth_error fs k = Some f /\ file = (of_file o + k)%nat /\ file_options f path ty s.
Proof.
  intros o. rewrite visit_eq. revert o. induction fs as [|f fs IH]; intros o file path ty s; cbn [g_files].
  - split; [intros []|]. intros ([|k] & g & H & _); discriminate H.
  - rewrite flat_map_app, in_app_iff, file_places, IH. cbn [off_file of_file]. split.
    + intros [(q & ty' & s' & E & P)|(k & g & H & E & P)].
      * exists 0%nat, f. injection E as -> -> -> ->. rewrite Nat.add_0_r. auto.
      * exists (S k), g. split; [exact H|]. split; [lia|exact P].
    + intros ([|k] & g & H & E & P).
      * left. injection H as <-. rewrite Nat.add_0_r in E. subst. do 3 eexists. split; [reflexivity|exact P].
      * right. exists k, g. split; [exact H|]. split; [lia|exact P].
Qed.

(** a path leads to one place *)
Ltac same_item := repeat match goal with
  | H : Z.of_nat _ = Z.of_nat _ |- _ => apply of_nat_inj in H; subst
  | A : nth_error ?l ?i = Some _, B : nth_error ?l ?i = Some _ |- _ => rewrite A in B; injection B; clear B; intros; subst
  end.
Lemma enum_options_fun scope e path ty s ty' s' : enum_options scope e path ty s -> enum_options scope e path ty' s' -> ty = ty' /\ s = s'.
Proof. intros H H'. inversion H; subst; inversion H'; subst; try (now split); same_item; now split. Qed.
Lemma message_options_fun full m path ty s : message_options full m path ty s -> forall ty' s', message_options full m path ty' s' -> ty = ty' /\ s = s'.
Proof.
  induction 1; intros ty' s' H'; inversion H'; subst; same_item; try (now split); eauto using enum_options_fun.
Qed.
Lemma file_options_fun f path ty s ty' s' : file_options f path ty s -> file_options f path ty' s' -> ty = ty' /\ s = s'.
Proof.
  intros H H'. inversion H; subst; inversion H'; subst; same_item; try (now split); eauto using message_options_fun, enum_options_fun.
Qed.
