(** Extensions and methods refer only to what their files see (C25). *)
From Coq Require Import String.
From Verif Require Import Base BaseProofs Value Descr Proto Build VisitProofs EventProofs BuildFrame BuildNames BuildQuiet BuildResolve BuildInv DeclSpec DeclProofs PoolFacts PoolMembers ResolveSpec ExampleFiles Prop_Pool Prop_Resolve.
From Coq Require Import List Lia ZArith NArith.
Import ListNotations.
Local Open Scope list_scope.

Lemma found_file X p names0 n df x k : search_ok X -> Inv X p -> older names0 (p_names p) -> assoc_s n names0 = Some df ->
  ((exists i, d_kind df = DMessage i /\ (k = KMessage i \/ k = KGroup i)) \/ (exists e, d_kind df = DEnum e /\ k = KEnum e)) ->
  target_file p k = Some x -> d_file df = x.
Proof.
  intros SO I O A K Hx. assert (assoc_s n (p_names p) = Some df) as A'.
  { apply nodup_assoc; [exact (iv_nodup _ _ I)|]. eapply older_in; [exact O|]. apply assoc_s_In. exact A. }
  assert (d_kind df <> DPackage) as NP by (intros E; destruct K as [[q [K _]]|[q [K _]]]; congruence).
  destruct (lookup_event X _ _ _ I A' NP) as (e & it & He & Hi & Hn & Hdf).
  rewrite Hdf in *. cbn [d_kind d_file] in *.
  destruct K as [[q [K Kk]]|[q [K ->]]].
  - destruct e; try discriminate. cbn in K. inversion K; subst index.
    destruct (iv_msgs _ _ I _ _ _ _ _ _ He) as [m2 [M1 [M2 _]]].
    assert (target_file p k = option_map (fun m => id_file (m_id m)) (nth_error (p_messages p) q)) as E by (destruct Kk; subst k; reflexivity).
    rewrite E, M1 in Hx. cbn in Hx. rewrite M2 in Hx. apply Some_inj in Hx. exact Hx.
  - destruct e; try discriminate. cbn in K. inversion K; subst index.
    destruct (iv_enums _ _ I _ _ _ _ _ _ He) as [m2 [M1 [M2 _]]]. cbn in Hx.
    rewrite M1 in Hx. cbn in Hx. rewrite M2 in Hx. apply Some_inj in Hx. exact Hx.
Qed.

(** The message an extension extends, and its type, are in files that the file
    of the extension sees. *)
Theorem C25_extensions_only_visible X p j x : search_ok X -> reachable X p -> nth_error (p_exts p) j = Some x ->
  (forall y, target_file p (KMessage (x_extendee x)) = Some y -> sees (pool_files p) (id_file (x_id x)) y) /\
  (forall y, target_file p (x_kind x) = Some y -> sees (pool_files p) (id_file (x_id x)) y).
Proof.
  intros SO R Hm. pose proof (reachable_Inv _ _ SO R) as I.
  assert (nth_error (all_ids DkExtension p) j = Some (x_id x)) as Hid by (cbn; rewrite nth_error_map, Hm; reflexivity).
  destruct (index_event _ _ _ _ _ I Hid) as [e [He Hk]]. destruct e as [| | | | | | | |path full fi parent index fd]; try discriminate.
  cbn in Hk. apply Some_inj in Hk. subst index.
  destruct (iv_exts _ _ I _ _ _ _ _ _ He) as (x' & n0 & Hx' & O & g & ex & k & d & G & M & N & T & D & E).
  rewrite Hm in Hx'. apply Some_inj in Hx'. subst x'. subst x. cbn [ext_of x_id mk_id id_file x_extendee x_kind].
  pose proof (proj1 (C25_visible_set_partial X p _ g SO R G)) as V. split; intros y Hy; apply V.
  - destruct M as (n & df & M & K). apply resolve_visible in M. destruct M as [A In]. rewrite <- (found_file X p n0 n df y _ SO I O A ltac:(left; eauto) Hy). exact In.
  - unfold type_spec in T. destruct (fp_type_name fd) as [|t0 t]; [destruct (fp_type fd); cbn in T; inversion T; subst; discriminate|].
    destruct T as [n [df [T K]]]. apply resolve_visible in T. destruct T as [A In].
    rewrite <- (found_file X p n0 n df y k SO I O A ltac:(destruct K as [(i & K & ->)|K]; [left; exists i; destruct (fp_type fd); auto|right; exact K]) Hy). exact In.
Qed.
Print Assumptions C25_extensions_only_visible.

(** So are the input and the output of a method, for the file of the service. *)
Theorem C25_methods_only_visible X p i s m : search_ok X -> reachable X p -> nth_error (p_services p) i = Some s -> In m (s_methods s) ->
  (forall y, target_file p (KMessage (me_input m)) = Some y -> sees (pool_files p) (id_file (s_id s)) y) /\
  (forall y, target_file p (KMessage (me_output m)) = Some y -> sees (pool_files p) (id_file (s_id s)) y).
Proof.
  intros SO R Hm Hin. pose proof (reachable_Inv _ _ SO R) as I.
  assert (nth_error (all_ids DkService p) i = Some (s_id s)) as Hid by (cbn; rewrite nth_error_map, Hm; reflexivity).
  destruct (index_event _ _ _ _ _ I Hid) as [e [He Hk]]. destruct e as [| | | |path full fi index sp| | | |]; try discriminate.
  cbn in Hk. apply Some_inj in Hk. subst index.
  destruct (iv_svcs _ _ I _ _ _ _ _ He) as (si' & n0 & A & B & O & F). rewrite Hm in A. apply Some_inj in A. subst si'.
  destruct (visit_cc off0 (raws p)) as [_ Cm]. destruct (Cm _ He) as [Ck _]. cbn [heads] in Ck.
  pose proof (Ck _ _ _ (or_introl eq_refl)) as K0. fold (pool_events p) in K0. rewrite K0 in F.
  apply In_nth_error in Hin. destruct Hin as (k & Hk). destruct (F2_nth_r _ _ _ F _ _ Hk) as (e & Ke & M).
  unfold g_methods in Ke. rewrite mapi_nth in Ke. destruct (nth_error (sp_methods sp) k) as [mp|]; [|discriminate Ke]. cbn in Ke. apply Some_inj in Ke. subst e.
  destruct M as (g & inp & out & G & M1 & M2 & ->). cbn [me_input me_output]. rewrite B. cbn [mk_id id_file].
  pose proof (proj1 (C25_visible_set_partial X p _ g SO R G)) as V. split; intros y Hy; apply V.
  - destruct M1 as (n & df & M & K). apply resolve_visible in M. destruct M as [A' In]. rewrite <- (found_file X p n0 n df y _ SO I O A' ltac:(left; eauto) Hy). exact In.
  - destruct M2 as (n & df & M & K). apply resolve_visible in M. destruct M as [A' In]. rewrite <- (found_file X p n0 n df y _ SO I O A' ltac:(left; eauto) Hy). exact In.
Qed.
Print Assumptions C25_methods_only_visible.

(** The first extension of the example pool extends a message of the file that
    its file imports; the service's method takes and gives messages. *)
Example C25_others_nonvacuous :
  (exists x, nth_error (p_exts pool_abcd) 0 = Some x /\ id_file (x_id x) = 1%nat /\ target_file pool_abcd (KMessage (x_extendee x)) = Some 0%nat) /\
  (exists x, nth_error (p_exts pool_abcd) 1 = Some x /\ target_file pool_abcd (x_kind x) = Some 1%nat) /\
  (exists s m, nth_error (p_services pool_abcd) 0 = Some s /\ s_methods s = [m] /\
     target_file pool_abcd (KMessage (me_input m)) = Some 0%nat /\ target_file pool_abcd (KMessage (me_output m)) = Some 0%nat).
Proof.
  split; [eexists; split; [vm_compute; reflexivity|split; vm_compute; reflexivity]|].
  split; [eexists; split; [vm_compute; reflexivity|vm_compute; reflexivity]|].
  eexists. eexists. split; [vm_compute; reflexivity|]. split; [vm_compute; reflexivity|]. split; vm_compute; reflexivity.
Qed.
