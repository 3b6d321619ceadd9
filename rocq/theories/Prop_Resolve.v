(** Resolution of type names (C24) and visibility (C25). *)
From Coq Require Import String.
From Verif Require Import Base BaseProofs Value Descr Proto Build VisitProofs EventProofs BuildFrame BuildNames BuildQuiet BuildResolve BuildInv DeclSpec DeclProofs PoolFacts ExampleFiles PoolMembers Prop_Pool ResolveSpec ResolveProofs.
From Coq Require Import List.
Import ListNotations.
Local Open Scope list_scope.
Local Open Scope N_scope.

(** ** C24 *)

Definition filter_fits (r : rfilter) (k : dkind) : Prop :=
  match r with
  | FMessage => exists i, k = DMessage i
  | FExtension => exists i, k = DExtension i
  | FFieldType => (exists i, k = DMessage i) \/ (exists i, k = DEnum i)
  end.
Lemma is_match_fits r k : is_match r k = true <-> filter_fits r k.
Proof.
  destruct r, k; cbn; split; try discriminate; intros H; eauto;
    try (exfalso; destruct H as [? H]; discriminate); try (exfalso; destruct H as [[? H]|[? H]]; discriminate).
Qed.
Lemma resolves_ext names vis f1 f2 scope ref n d : (forall k, f1 k <-> f2 k) ->
  resolves names vis f1 scope ref n d -> resolves names vis f2 scope ref n d.
Proof.
  intros E. assert (forall n d, fitting names vis f1 n d <-> fitting names vis f2 n d) as FE.
  { intros n' d'. unfold fitting. rewrite E. reflexivity. }
  intros [n' d' H|ref' sc d' H1 H2 H3 H4|first rest sc c d' H1 H2 H3 H4 H5 H6 H7].
  - apply rs_absolute. apply FE. exact H.
  - apply rs_simple; auto; [apply FE; exact H3|]. intros sc' A B d'' Q. apply FE in Q. exact (H4 sc' A B d'' Q).
  - eapply rs_compound; eauto. apply FE. exact H7.
Qed.

(** The resolver implements the rules, for all tables, scopes and references. *)
Theorem C24_resolution deps names scope ref r n d : scope <> [] ->
  (resolve_name deps names scope ref r = RFound n d <->
   resolves (fun x => assoc_s x names) (fun f => In f deps) (filter_fits r) scope ref n d).
Proof.
  intros Hs. rewrite resolve_exact by exact Hs. split; apply resolves_ext; intros k; [|symmetry]; apply is_match_fits.
Qed.
Print Assumptions C24_resolution.
(** The rules give at most one answer. *)
Theorem C24_unambiguous names vis fits scope ref n d n' d' :
  resolves names vis fits scope ref n d -> resolves names vis fits scope ref n' d' -> n = n' /\ d = d'.
Proof.
  assert (forall (a a' b b' : str), ~ In dot a -> ~ In dot a' -> a ++ dot :: b = a' ++ dot :: b' -> a = a' /\ b = b') as SP.
  { induction a as [|x a IH]; intros [|x' a'] b b' N N' E; cbn in E; inversion E; subst; auto.
    - exfalso. apply N'. left. reflexivity.
    - exfalso. apply N. left. reflexivity.
    - destruct (IH a' b b') as [-> ->]; auto; intros H; [apply N|apply N']; right; exact H. }
  assert (forall sc sc', encloses sc scope -> encloses sc' scope -> ~ inside sc sc' -> ~ inside sc' sc -> sc = sc') as EQ.
  { intros sc sc' A B C D. apply (encloses_eq _ _ scope A B). unfold inside in *. lia. }
  assert (forall a : str, ~ In dot (dot :: a) -> False) as ND by (intros a H; apply H; left; reflexivity).
  assert (forall a r : str, ~ In dot (a ++ dot :: r) -> False) as ND2 by (intros a r H; apply H, in_app_iff; right; left; reflexivity).
  intros H1 H2. destruct H1 as [n d F|ref sc d N E F M|a rest sc c d Ne N E C K M F].
  - inversion H2 as [n2 d2 F2|ref2 sc2 d2 N2 E2 F2 M2|a2 rest2 sc2 c2 d2 Ne2 N2 E2 C2 K2 M2 F2]; subst.
    + split; [reflexivity|]. destruct F as [F _], F2 as [F2 _]. congruence.
    + exfalso. exact (ND _ N2).
    + exfalso. destruct a2; [contradiction|]. match goal with Q : _ = dot :: n |- _ => cbn in Q; inversion Q; subst end. exact (ND _ N2).
  - inversion H2 as [n2 d2 F2|ref2 sc2 d2 N2 E2 F2 M2|a2 rest2 sc2 c2 d2 Ne2 N2 E2 C2 K2 M2 F2]; subst.
    + exfalso. exact (ND _ N).
    + assert (sc = sc2) as <-. { apply EQ; auto; intros I; [exact (M2 _ E I _ F)|exact (M _ E2 I _ F2)]. }
      split; [reflexivity|]. destruct F as [F _], F2 as [F2 _]. congruence.
    + exfalso. exact (ND2 _ _ N).
  - inversion H2 as [n2 d2 F2|ref2 sc2 d2 N2 E2 F2 M2|a2 rest2 sc2 c2 d2 Ne2 N2 E2 C2 K2 M2 F2]; subst.
    + exfalso. destruct a; [contradiction|]. match goal with Q : dot :: _ = _ |- _ => cbn in Q; inversion Q; subst end. exact (ND _ N).
    + exfalso. exact (ND2 _ _ N2).
    + match goal with Q : a2 ++ _ = a ++ _ |- _ => apply SP in Q; [|assumption|assumption]; destruct Q as [-> ->] end.
      assert (sc = sc2) as <-. { apply EQ; auto; intros I; [exact (M2 _ E I _ C K)|exact (M _ E2 I _ C2 K2)]. }
      split; [reflexivity|]. destruct F as [F _], F2 as [F2 _]. congruence.
Qed.
Print Assumptions C24_unambiguous.

(** an accepted pool: the type of each field is what the rules give for the
    reference in the file, seen from the full name of the field, with the names
    there were when its file was added *)
Definition kind_of (p : pool) (k : kind) (n : str) (d : def) : Prop :=
  match k with
  | KMessage i | KGroup i => d_kind d = DMessage i /\ option_map (fun m => id_full (m_id m)) (nth_error (p_messages p) i) = Some n
  | KEnum i => d_kind d = DEnum i /\ option_map (fun m => id_full (e_id m)) (nth_error (p_enums p) i) = Some n
  | _ => False
  end.
Lemma pool_kind X p names0 n d k : Inv X p -> older names0 (p_names p) -> assoc_s n names0 = Some d ->
  (exists i, d_kind d = DMessage i /\ (k = KMessage i \/ k = KGroup i)) \/ (exists i, d_kind d = DEnum i /\ k = KEnum i) ->
  kind_of p k n d.
Proof.
  intros I O A K. assert (assoc_s n (p_names p) = Some d) as A'.
  { apply nodup_assoc; [exact (iv_nodup _ _ I)|]. eapply older_in; [exact O|]. apply assoc_s_In. exact A. }
  assert (d_kind d <> DPackage) as NP by (intros E; destruct K as [[i [K _]]|[i [K _]]]; congruence).
  destruct (lookup_event X _ _ _ I A' NP) as (e & it & He & Hi & Hn & Hd).
  assert (ev_kind e = d_kind d) as Ke by (rewrite Hd; reflexivity).
  destruct K as [[i [K Kk]]|[i [K ->]]]; rewrite K in Ke.
  - destruct e; try discriminate. cbn in Ke. inversion Ke; subst index. 
    destruct (iv_msgs _ _ I _ _ _ _ _ _ He) as [mi [M1 [M2 _]]].
    assert (option_map (fun m => id_full (m_id m)) (nth_error (p_messages p) i) = Some n) as Q.
    { rewrite M1. cbn. rewrite M2. cbn. f_equal. exact Hn. }
    destruct Kk as [-> | ->]; cbn; auto.
  - destruct e; try discriminate. cbn in Ke. inversion Ke; subst index.
    destruct (iv_enums _ _ I _ _ _ _ _ _ He) as [mi [M1 [M2 _]]].
    cbn. split; [exact K|]. rewrite M1. cbn. rewrite M2. cbn. f_equal. exact Hn.
Qed.
Lemma type_resolves X p names0 trans ty ref scope k : Inv X p -> older names0 (p_names p) -> scope <> [] -> ref <> [] ->
  type_spec names0 trans ty ref scope k ->
  exists n d, resolves (fun x => assoc_s x names0) (fun x => In x trans) field_type scope ref n d /\ kind_of p k n d.
Proof.
  intros I O Hs Hr T. destruct ref as [|r0 ref]; [contradiction|]. destruct T as [n [d [T K]]]. exists n, d.
  apply C24_resolution in T; [|exact Hs]. split; [exact T|].
  assert (assoc_s n names0 = Some d) as A.
  { clear - T. destruct T as [n d F|ref' sc d N E F M|a rest sc c d Ne N E C K M F]; apply F. }
  eapply pool_kind; eauto. destruct K as [[i [K1 K2]]|K]; [left; exists i; split; [exact K1|]; destruct ty; auto|right; exact K].
Qed.

Theorem C24_in_pools X p i mi : search_ok X -> reachable X p -> nth_error (p_messages p) i = Some mi ->
  exists f g dm scope names0,
    nth_error (pool_files p) (id_file (m_id mi)) = Some f /\ message_at f (id_path (m_id mi)) scope dm /\
    nth_error (p_files p) (id_file (m_id mi)) = Some g /\ older names0 (p_names p) /\
    Forall2 (fun fd v => let full := dotted (id_full (m_id mi)) (fp_name fd) in
      fp_type_name fd <> [] -> full <> [] ->
      exists n d, resolves (fun x => assoc_s x names0) (fun x => In x (fi_trans g)) field_type full (fp_type_name fd) n d /\
                  kind_of p (fd_kind v) n d)
      (dp_fields dm) (msg_fields_index (p_tables p) i).
Proof.
  intros SO R Hm. pose proof (reachable_Inv _ _ SO R) as I.
  destruct (message_decl X p i mi I Hm) as (f & dm & scope & n0 & Hf & Hd & Hfull & _ & _ & O & F & _ & _).
  assert (exists g, nth_error (p_files p) (id_file (m_id mi)) = Some g) as [g Hg].
  { unfold pool_files in Hf. rewrite nth_error_map in Hf. destruct (nth_error (p_files p) (id_file (m_id mi))); [eauto|discriminate]. }
  exists f, g, dm, scope, n0. split; [exact Hf|]. split; [exact Hd|]. split; [exact Hg|]. split; [exact O|].
  pose proof (field_decl _ _ _ _ _ _ _ _ _ F) as FD. unfold msg_fields_index. cbn [p_tables t_messages]. rewrite Hm.
  clear - FD I O Hg. revert FD. generalize (m_fields mi). intros l FD. induction FD as [|fd x fds xs H FD IH]; cbn [map]; constructor; [|exact IH].
  destruct H as [j (g' & k & d & G & _ & T & _ & _ & ->)]. rewrite Hg in G. apply Some_inj in G. subst g'.
  cbn [field_of field_view fd_kind f_kind]. cbv zeta. intros Ht Hfu. eapply type_resolves; eauto.
Qed.
Print Assumptions C24_in_pools.

Example C24_nonvacuous :
  let nm := p_names pool_abcd in
  (* from field a.b.M.in, Inner is the message nested in M; from field c.N.m, a.b.M is found in the root *)
  (exists d, resolve_name [0%nat] nm (b "a.b.M.in") (b "Inner") FFieldType = RFound (b "a.b.M.Inner") d) /\
  (exists d, resolve_name [1; 0]%nat nm (b "c.N.m") (b "a.b.M") FFieldType = RFound (b "a.b.M") d) /\
  (forall n d, resolve_name [0%nat] nm (b "a.b.M.in") (b "b.Nope") FFieldType <> RFound n d).
Proof.
  split; [eexists; vm_compute; reflexivity|]. split; [eexists; vm_compute; reflexivity|]. vm_compute. discriminate.
Qed.
(** An inner package shadows an outer one even if the reference could be resolved
    further out. *)
Definition shadow_names : list (str * def) :=
  [(b "a", Def 0 [] DPackage); (b "a.b", Def 0 [] DPackage); (b "b", Def 0 [] DPackage); (b "b.M", Def 0 [] (DMessage 0));
   (b "a.b.N", Def 0 [] (DMessage 1)); (b "N", Def 0 [] (DMessage 2))].
Example C24_shadowing :
  resolve_name [0%nat] shadow_names (b "a.X.f") (b "b.M") FFieldType = RShadowed (b "b.M") (b "a.b.M") /\
  resolve_name [0%nat] shadow_names (b "a.b.X.f") (b "N") FFieldType = RFound (b "a.b.N") (Def 0 [] (DMessage 1)) /\
  resolve_name [0%nat] shadow_names (b "a.b.X.f") (b ".N") FFieldType = RFound (b "N") (Def 0 [] (DMessage 2)).
Proof. repeat split; vm_compute; reflexivity. Qed.

(** ** C25 *)

Lemma public_in f k : is_public f k = true <-> In (Z.of_nat k) (fl_public f).
Proof.
  unfold is_public. split.
  - intros H. apply existsb_exists in H. destruct H as [z [H E]]. apply Z.eqb_eq in E. subst z. exact H.
  - intros H. apply existsb_exists. exists (Z.of_nat k). split; [exact H|apply Z.eqb_refl].
Qed.
Lemma pub_dep_spec X p : search_ok X -> reachable X p -> forall a x,
  pub_dep (p_file_names p) (raws p) a x <-> public_import (pool_files p) a x.
Proof.
  intros SO R a x. pose proof (C23_file_lookup X p SO R) as L. unfold get_file_by_name in L.
  unfold pub_dep, public_import, imports_at. fold (pool_files p). split.
  - intros [f [k [d [H1 [H2 [H3 H4]]]]]]. apply L in H4. destruct H4 as [g [G1 G2]]. exists f, k. split; [exact H1|]. split; [apply public_in; exact H3|].
    exists f, g, d. auto.
  - intros [f [k [H1 [H2 [f' [g [d [H3 [H4 [H5 H6]]]]]]]]]]. rewrite H1 in H3. apply Some_inj in H3. subst f'.
    exists f, k, d. split; [exact H1|]. split; [exact H4|]. split; [apply public_in; exact H2|]. apply L. eauto.
Qed.
Lemma deps_imports X p a f deps trans : search_ok X -> reachable X p -> nth_error (pool_files p) a = Some f ->
  deps_spec (p_file_names p) (raws p) a f deps trans -> forall j, In j deps <-> imports (pool_files p) a j.
Proof.
  intros SO R Hf D j. pose proof (ds_deps _ _ _ _ _ _ D) as F. pose proof (C23_file_lookup X p SO R) as L. unfold get_file_by_name in L. split.
  - intros H. apply In_nth_error in H. destruct H as [k Hk]. destruct (F2_nth_r _ _ _ F _ _ Hk) as [d [Hd A]]. apply L in A. destruct A as [g [G1 G2]].
    exists k, f, g, d. auto.
  - intros [k [f' [g [d [H1 [H2 [H3 H4]]]]]]]. rewrite Hf in H1. apply Some_inj in H1. subst f'. destruct (F2_nth_l _ _ _ F _ _ H2) as [j' [Hj A]].
    assert (assoc_s d (p_file_names p) = Some j) as A' by (apply L; eauto). rewrite A in A'. apply Some_inj in A'. subst j'. eapply nth_error_In. exact Hj.
Qed.
Lemma file_deps X p a fi : Inv X p -> nth_error (p_files p) a = Some fi ->
  nth_error (pool_files p) a = Some (fi_raw fi) /\ deps_spec (p_file_names p) (raws p) a (fi_raw fi) (fi_deps fi) (fi_trans fi).
Proof.
  intros I H. assert (nth_error (pool_files p) a = Some (fi_raw fi)) as Hf by (unfold pool_files; rewrite nth_error_map, H; reflexivity).
  split; [exact Hf|]. destruct (iv_files _ _ I _ _ _ (file_event _ _ _ Hf)) as [sy [deps [trans [_ [A B]]]]].
  rewrite H in A. apply Some_inj in A. destruct fi. cbn in *. inversion A; subst. exact B.
Qed.

(** The set of files a file sees: nothing else, and at least itself, its imports
    and what these import publicly. *)
Theorem C25_visible_set_partial X p a fi : search_ok X -> reachable X p -> nth_error (p_files p) a = Some fi ->
  (forall x, In x (fi_trans fi) -> sees (pool_files p) a x) /\
  (forall x, (x = a \/ imports (pool_files p) a x \/ exists j, imports (pool_files p) a j /\ public_import (pool_files p) j x) ->
     In x (fi_trans fi)).
Proof.
  intros SO R H. pose proof (reachable_Inv _ _ SO R) as I. destruct (file_deps X p a fi I H) as [Hf D].
  pose proof (deps_imports X p a _ _ _ SO R Hf D) as DI. pose proof (pub_dep_spec X p SO R) as PD. split.
  - intros x Hx. destruct (ds_sound _ _ _ _ _ _ D _ Hx) as [-> |[j [Hj P]]]; [left; reflexivity|]. right. exists j. split; [apply DI; exact Hj|].
    clear - P PD. induction P as [j|j c x P1 P IH]; [constructor|]. eapply pi_more; [apply PD; exact P1|exact IH].
  - intros x [-> |[Hx|[j [Hj Hx]]]].
    + exact (ds_self _ _ _ _ _ _ D).
    + apply (ds_direct _ _ _ _ _ _ D). apply DI. exact Hx.
    + apply (ds_public _ _ _ _ _ _ D j); [apply DI; exact Hj|apply PD; exact Hx].
Qed.
Print Assumptions C25_visible_set_partial.

(** A field refers only to types the file of its message sees. *)
Definition target_file (p : pool) (k : kind) : option nat :=
  match k with
  | KMessage i | KGroup i => option_map (fun m => id_file (m_id m)) (nth_error (p_messages p) i)
  | KEnum i => option_map (fun e => id_file (e_id e)) (nth_error (p_enums p) i)
  | _ => None
  end.
Lemma resolve_visible deps names scope ref r n d : resolve_name deps names scope ref r = RFound n d ->
  assoc_s n names = Some d /\ In (d_file d) deps.
Proof.
  destruct scope as [|s0 scope].
  - intros H. assert (exists name, lookup_name deps names name r = RFound n d) as [name L].
    { unfold resolve_name in H. destruct ref as [|c ref]; [eauto|]. destruct (c =? dot); eauto. }
    apply lookup_found in L. destruct L as [-> [A [B _]]]. auto.
  - intros H. apply C24_resolution in H; [|discriminate].
    destruct H as [n d F|ref' sc d N E F M|a rest sc c d Ne N E C K M F]; destruct F as [F1 [F2 _]]; auto.
Qed.
Theorem C25_only_visible X p i mi : search_ok X -> reachable X p -> nth_error (p_messages p) i = Some mi ->
  forall v x, In v (msg_fields_index (p_tables p) i) -> target_file p (fd_kind v) = Some x ->
    sees (pool_files p) (id_file (m_id mi)) x.
Proof.
  intros SO R Hm v x Hv Hx. pose proof (reachable_Inv _ _ SO R) as I.
  destruct (message_decl X p i mi I Hm) as (f & dm & scope & n0 & Hf & Hd & Hfull & _ & _ & O & F & _ & _).
  pose proof (field_decl _ _ _ _ _ _ _ _ _ F) as FD. unfold msg_fields_index in Hv. cbn [p_tables t_messages] in Hv. rewrite Hm in Hv.
  apply in_map_iff in Hv. destruct Hv as [y [<- Hy]]. apply In_nth_error in Hy. destruct Hy as [j Hj].
  destruct (F2_nth_r _ _ _ FD _ _ Hj) as [fd [_ [j' (g & k & d & G & _ & T & _ & _ & ->)]]].
  cbn [field_of field_view fd_kind f_kind] in Hx.
  apply (proj1 (C25_visible_set_partial X p _ g SO R G)).
  unfold type_spec in T. destruct (fp_type_name fd) as [|t0 t]; [destruct (fp_type fd); cbn in T; inversion T; subst; discriminate|].
  destruct T as [n [df [T K]]]. apply resolve_visible in T. destruct T as [A V].
  assert (assoc_s n (p_names p) = Some df) as A'.
  { apply nodup_assoc; [exact (iv_nodup _ _ I)|]. eapply older_in; [exact O|]. apply assoc_s_In. exact A. }
  assert (d_kind df <> DPackage) as NP by (intros E; destruct K as [[q [K _]]|[q [K _]]]; congruence).
  destruct (lookup_event X _ _ _ I A' NP) as (e & it & He & Hi & Hn & Hdf).
  assert (d_file df = x) as <-; [|exact V].
  rewrite Hdf in *. cbn [d_kind d_file] in *.
  destruct K as [[q [K Kk]]|[q [K ->]]].
  - destruct e; try discriminate. cbn in K. inversion K; subst index.
    destruct (iv_msgs _ _ I _ _ _ _ _ _ He) as [m2 [M1 [M2 _]]].
    assert (target_file p k = option_map (fun m => id_file (m_id m)) (nth_error (p_messages p) q)) as E by (destruct (fp_type fd); subst k; reflexivity).
    rewrite E, M1 in Hx. cbn in Hx. rewrite M2 in Hx. apply Some_inj in Hx. exact Hx.
  - destruct e; try discriminate. cbn in K. inversion K; subst index.
    destruct (iv_enums _ _ I _ _ _ _ _ _ He) as [m2 [M1 [M2 _]]]. cbn in Hx.
    rewrite M1 in Hx. cbn in Hx. rewrite M2 in Hx. apply Some_inj in Hx. exact Hx.
Qed.
Print Assumptions C25_only_visible.

(** A message or enum of a file that is visible without a chain of public imports
    is found by its full name. *)
Theorem C25_visible_found_partial X p a fi n d scope : search_ok X -> reachable X p -> nth_error (p_files p) a = Some fi ->
  assoc_s n (p_names p) = Some d -> field_type (d_kind d) ->
  (d_file d = a \/ imports (pool_files p) a (d_file d) \/ exists j, imports (pool_files p) a j /\ public_import (pool_files p) j (d_file d)) ->
  resolve_name (fi_trans fi) (p_names p) scope (dot :: n) FFieldType = RFound n d.
Proof.
  intros SO R H A K V. cbn [resolve_name]. rewrite N.eqb_refl. apply lookup_found. split; [reflexivity|]. split; [exact A|]. split.
  - apply (proj2 (C25_visible_set_partial X p a fi SO R H)). exact V.
  - apply (is_match_fits FFieldType). exact K.
Qed.
Print Assumptions C25_visible_found_partial.

(** Two public imports in a row hide the definitions: the code descends only into
    files that are in the set already. *)
Definition pub_file (name pkg : string) (dep : option string) (msgs : list dproto) : file :=
  File (b name) (b pkg) (match dep with Some d => [b d] | None => [] end) (match dep with Some _ => [0%Z] | None => [] end) [] msgs [] [] [] None.
Definition pub_a := pub_file "a" "pa" None [DP (b "A") [] [] [] [] [] [] false []].
Definition pub_b := pub_file "b" "pb" (Some "a"%string) [].
Definition pub_c := pub_file "c" "pc" (Some "b"%string) [].
Definition user_file (dep : string) : file :=
  File (b "d") (b "pd") [b dep] [] [] [DP (b "D") [fld "x" 1 Optional TMessage ".pa.A"] [] [] [] [] [] false []] [] [] [] None.
Definition pool_pub : pool := built (build_files demo_externs 10 empty_pool [pub_a; pub_b; pub_c]).
Lemma reach_pub : reachable demo_externs pool_pub.
Proof.
  apply (re_built _ 10 empty_pool [pub_a; pub_b; pub_c] _ (re_empty _)); [repeat constructor; discriminate|]. vm_compute. reflexivity.
Qed.
Theorem C25_refuted_public_chain : exists fs, reachable demo_externs pool_pub /\ pool_files pool_pub = fs /\
  sees (fs ++ [user_file "c"]) 3 0 /\
  build_files demo_externs 10 pool_pub [user_file "c"] =
    Rejected pool_pub [at_spot (3%nat, [4; 0; 2; 0; 6]%Z) (ErrNotFound (b "pa.A"))].
Proof.
  eexists. split; [exact reach_pub|]. split; [reflexivity|]. split; [|vm_compute; reflexivity].
  assert (pool_files pool_pub = [pub_a; pub_b; pub_c]) as -> by (vm_compute; reflexivity). cbn [app].
  right. exists 2%nat. split.
  - exists 0%nat, (user_file "c"), pub_c, (b "c"). repeat split; reflexivity.
  - apply pi_more with 1%nat; [|apply pi_more with 0%nat; [|constructor]].
    + exists pub_c, 0%nat. split; [reflexivity|]. split; [left; reflexivity|]. exists pub_c, pub_b, (b "b"). repeat split; reflexivity.
    + exists pub_b, 0%nat. split; [reflexivity|]. split; [left; reflexivity|]. exists pub_b, pub_a, (b "a"). repeat split; reflexivity.
Qed.
Print Assumptions C25_refuted_public_chain.
Example C25_nonvacuous :
  (exists p, build_files demo_externs 10 pool_pub [user_file "b"] = Built p) /\
  (exists p, build_files demo_externs 10 pool_pub [user_file "a"] = Built p).
Proof. split; (eexists; vm_compute; reflexivity). Qed.
