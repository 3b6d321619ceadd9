(** Generated message types find their descriptors (C69). *)
From Coq Require Import String.
From Verif Require Import Base BaseProofs Value Descr Proto Build VisitProofs EventProofs BuildFrame BuildNames BuildQuiet BuildResolve BuildInv DeclSpec DeclProofs PoolFacts ExampleFiles Prop_Pool Global Prop_Share Generate.
From Coq Require Import List.
Import ListNotations.
Local Open Scope list_scope.
Local Open Scope N_scope.

(** ** Specification *)

(** the full names of the messages in a pool *)
Definition message_names (p : pool) : list str := map (fun m => id_full (m_id m)) (p_messages p).
(** [short] is the end of [long], after a dot *)
Definition ends_in (long short : str) : Prop := exists r, long = r ++ [46] ++ short.
(** nothing else in the configuration is about reflection *)
Definition unrelated (c : config) : Prop := forall path a, In (path, a) c -> exists t, a = Unrelated t.
(** the builder was told where descriptors come from, by an expression; the pool
    goes before the bytes *)
Definition told (b : builder) (s : source) (e : str) : Prop :=
  match s with
  | FromPool x => x = e /\ b_pool b = Some e
  | FromBytes x => x = e /\ b_pool b = None /\ b_bytes b = Some e
  end.
(** names as protoc makes them: not empty, and not starting with a dot *)
Definition proper (n : str) : Prop := n <> [] /\ hd 0 n <> 46.

(** ** Matching of paths *)

Lemma after_dot_iff path fq : after_dot path fq = true <-> exists r, fq = r ++ [46] ++ path.
Proof.
  induction fq as [|c fq IH]; cbn.
  - split; [discriminate|]. intros [r E]. destruct r; discriminate.
  - rewrite orb_true_iff, andb_true_iff, N.eqb_eq, bytes_eqb_eq, IH. split.
    + intros [[-> ->]|[r ->]]; [exists []; reflexivity|exists (c :: r); reflexivity].
    + intros [r E]. destruct r as [|x r]; cbn in E; inversion E; subst; [left; auto|right; exists r; reflexivity].
Qed.
Lemma before_dot_head path fq : before_dot path fq = true -> path <> [] /\ hd 0 path = hd 0 fq.
Proof.
  destruct path as [|a path]; intros H; [destruct fq; cbn in H; discriminate|]. split; [discriminate|].
  destruct fq as [|x fq]; [destruct path; cbn in H; discriminate|]. cbn.
  destruct path as [|a' path].
  - cbn in H. destruct fq; [rewrite andb_false_r in H; discriminate|]. apply andb_prop in H. apply N.eqb_eq. apply H.
  - cbn [before_dot] in H. apply andb_prop in H. apply N.eqb_eq. apply H.
Qed.
Lemma matches_iff m n : proper m -> proper n -> path_matches m (46 :: n) = true <-> m = n \/ ends_in n m.
Proof.
  intros [M1 M2] [N1 N2]. unfold path_matches. split.
  - intros H. apply orb_prop in H. destruct H as [H|H].
    2:{ apply bytes_eqb_eq in H. subst. contradiction M2. reflexivity. }
    apply orb_prop in H. destruct H as [H|H].
    2:{ apply before_dot_head in H. destruct H as [_ H]. cbn in H. contradiction. }
    apply orb_prop in H. destruct H as [H|H].
    + apply bytes_eqb_eq in H. subst. contradiction M2. reflexivity.
    + apply after_dot_iff in H. destruct H as [r E]. destruct r as [|c r]; cbn in E; inversion E; subst; [left; reflexivity|].
      right. exists r. reflexivity.
  - intros H. apply orb_true_intro. left. apply orb_true_intro. left. apply orb_true_intro. right. apply after_dot_iff.
    destruct H as [-> |[r ->]]; [exists []; reflexivity|exists (46 :: r); reflexivity].
Qed.

(** ** Attributes *)

Definition triple (a : attribute) (n : str) : list attribute := [Derive; Reflect [(k_name, GStr n)]; a].
Lemma attributes_app c d fq : attributes_of (c ++ d) fq = attributes_of c fq ++ attributes_of d fq.
Proof. unfold attributes_of. rewrite filter_app, map_app. reflexivity. Qed.
Lemma attributes_messages a fq ms :
  attributes_of (flat_map (fun m => for_message a (id_full (m_id m))) ms) fq =
  flat_map (triple a) (filter (fun n => path_matches n fq) (map (fun m => id_full (m_id m)) ms)).
Proof.
  induction ms as [|m ms IH]; [reflexivity|]. cbn [flat_map map filter]. rewrite attributes_app, IH.
  unfold attributes_of, for_message. cbn [filter fst map snd]. destruct (path_matches (id_full (m_id m)) fq); reflexivity.
Qed.
Lemma unrelated_attributes c fq : unrelated c -> Forall (fun a => exists t, a = Unrelated t) (attributes_of c fq).
Proof.
  intros U. apply Forall_forall. intros a H. unfold attributes_of in H. apply in_map_iff in H. destruct H as [[path a'] [<- H]].
  apply filter_In in H. exact (U path a' (proj1 H)).
Qed.
Lemma reflect_unrelated l r : Forall (fun a => exists t, a = Unrelated t) l -> reflect_attrs (l ++ r) = reflect_attrs r.
Proof. induction 1 as [|a l [t ->] F IH]; cbn; [reflexivity|exact IH]. Qed.
Lemma expansions_unrelated l r : Forall (fun a => exists t, a = Unrelated t) l ->
  forall E, flat_map (fun a => match a with Derive => [E] | _ => [] end) (l ++ r) =
            flat_map (fun a => match a with Derive => [E : expansion] | _ => [] end) r.
Proof. intros F E. induction F as [|a l [t ->] F IH]; cbn; [reflexivity|exact IH]. Qed.

(** the arguments after all attributes for the names [ns] *)
Lemma parse_names b s e a ns : told b s e -> pool_attribute b = Some a ->
  forall st, ns <> [] -> (a_pool st = None \/ exists x, s = FromPool x) ->
  exists r, reflect_attrs (flat_map (triple a) ns) <> [] /\
    parse_all (concat (reflect_attrs (flat_map (triple a) ns))) st = Some r /\
    a_name r = Some (GStr (last ns [])) /\
    match s with FromPool x => a_pool r = Some x | FromBytes x => a_pool r = None /\ a_bytes r = Some x end.
Proof.
  intros T A. induction ns as [|n ns IH]; intros st Ne P; [contradiction|].
  assert (exists kv, a = Reflect [kv] /\ kv = (match s with FromPool _ => k_pool | FromBytes _ => k_bytes end, GStr e)) as [kv [-> ->]].
  { unfold pool_attribute in A. destruct s as [x|x]; cbn in T.
    - destruct T as [-> T]. rewrite T in A. inversion A. eauto.
    - destruct T as [-> [T1 T2]]. rewrite T1, T2 in A. inversion A. eauto. }
  set (st1 := match s with FromPool x => Args (Some (GStr n)) (Some x) (a_bytes st)
                         | FromBytes x => Args (Some (GStr n)) (a_pool st) (Some x) end).
  assert (forall tl, parse_all ([(k_name, GStr n)] ++ [(match s with FromPool _ => k_pool | FromBytes _ => k_bytes end, GStr e)] ++ tl) st = parse_all tl st1) as K.
  { intros tl. unfold st1. destruct s as [x|x]; cbn in T; destruct T as [-> T]; reflexivity. }
  cbn [flat_map triple app reflect_attrs concat].
  destruct ns as [|n' ns].
  - exists st1. split; [discriminate|]. split; [exact (K [])|].
    unfold st1. destruct s as [x|x]; cbn; split; try reflexivity.
    split; [|reflexivity]. destruct P as [P|[x' P]]; [exact P|discriminate].
  - destruct (IH st1) as [r [_ [R1 [R2 R3]]]]; [discriminate| |].
    { unfold st1. destruct s as [x|x]; [right; eauto|left; cbn]. destruct P as [P|[x' P]]; [exact P|discriminate]. }
    exists r. split; [discriminate|]. split; [etransitivity; [apply (K (concat (reflect_attrs (flat_map (triple _) (n' :: ns)))))|exact R1]|].
    split; [exact R2|exact R3].
Qed.

Lemma expansions_names parses b s e a c ns : told b s e -> parses e = true -> pool_attribute b = Some a ->
  Forall (fun x => exists t, x = Unrelated t) c ->
  expansions parses AStruct (c ++ flat_map (triple a) ns) = map (fun _ => Implement s (GStr (last ns []))) ns.
Proof.
  intros T P A U. destruct ns as [|n ns].
  { cbn [flat_map map]. unfold expansions. rewrite (expansions_unrelated c [] U). reflexivity. }
  assert (expand parses AStruct (c ++ flat_map (triple a) (n :: ns)) = Implement s (GStr (last (n :: ns) []))) as E.
  { destruct (parse_names b s e a (n :: ns) T A (Args None None None)) as [r [R0 [R1 [R2 R3]]]]; [discriminate|left; reflexivity|].
    unfold expand, parse_args. rewrite (reflect_unrelated _ _ U). destruct (reflect_attrs (flat_map (triple a) (n :: ns))) eqn:Q; [contradiction|].
    rewrite R1, R2. unfold args_source. destruct s as [x|x]; cbn in T.
    - destruct T as [-> T]. rewrite R3, P. reflexivity.
    - destruct T as [-> T]. destruct R3 as [-> ->]. rewrite P. reflexivity. }
  unfold expansions. rewrite E. rewrite (expansions_unrelated _ _ U).
  generalize (Implement s (GStr (last (n :: ns) []))). intros F. generalize (n :: ns). intros l.
  assert (exists kv, a = Reflect kv) as [kv ->].
  { unfold pool_attribute in A. destruct (b_pool b), (b_bytes b); inversion A; eauto. }
  induction l as [|x l IH]; [reflexivity|]. cbn. f_equal. exact IH.
Qed.

Lemma names_unique X p : search_ok X -> reachable X p -> NoDup (message_names p).
Proof.
  intros SO R. destruct (C36_lookup_exact X p DkMessage SO R) as [_ [_ H]]. unfold message_names.
  apply NoDup_nth_error. intros i j Hi E. rewrite map_length in Hi.
  destruct (nth_error (p_messages p) i) as [m|] eqn:Ei; [|apply nth_error_None in Ei; lia].
  rewrite !nth_error_map, Ei in E. cbn in E. destruct (nth_error (p_messages p) j) as [m'|] eqn:Ej; [|discriminate]. cbn in E. inversion E as [E'].
  destruct (H i (m_id m)) as [_ H1]; [cbn; rewrite nth_error_map, Ei; reflexivity|].
  destruct (H j (m_id m')) as [_ H2]; [cbn; rewrite nth_error_map, Ej; reflexivity|]. congruence.
Qed.
Lemma NoDup_filter_one {A} (P : A -> bool) l x : NoDup l -> In x l -> P x = true ->
  (forall y, In y l -> P y = true -> y = x) -> filter P l = [x].
Proof.
  induction 1 as [|a l N ND IH]; intros Hx Px U; [destruct Hx|]. cbn. destruct Hx as [-> |Hx].
  - rewrite Px. f_equal. destruct (filter P l) as [|z r] eqn:F; [reflexivity|]. exfalso.
    assert (In z (filter P l)) as Hz by (rewrite F; left; reflexivity). apply filter_In in Hz. destruct Hz as [Hz Pz].
    apply N. rewrite <- (U z (or_intror Hz) Pz). exact Hz.
  - destruct (P a) eqn:Pa.
    + exfalso. apply N. rewrite (U a (or_introl eq_refl) Pa). exact Hx.
    + apply IH; auto. intros y Hy. apply U. right. exact Hy.
Qed.

(** ** C69 *)

(** What configuring does: nothing to the messages of a set without an expression;
    with one, every generated message type gets the macro, and the type has one
    implementation, with its own full name and the chosen source, exactly if its
    name does not end in the full name of another message of the set. Where it
    does, the implementations clash, and the code does not compile. *)
Theorem C69_one_implementation_partial X fuel parses b s e fs c c' n : search_ok X -> plain fs ->
  unrelated c -> told b s e -> parses e = true ->
  configure X fuel b (Some fs) c = Done c' ->
  exists p, build_files X fuel empty_pool fs = Built p /\
    (Forall proper (message_names p) -> In n (message_names p) ->
     (expansions parses AStruct (attributes_of c' (46 :: n)) = [Implement s (GStr n)] <->
      forall m, In m (message_names p) -> ~ ends_in n m) /\
     (forall m, In m (message_names p) -> ends_in n m ->
      (2 <= length (expansions parses AStruct (attributes_of c' (46%N :: n))))%nat)).
Proof.
  intros SO Pl U T P H. cbn in H. destruct (build_files X fuel empty_pool fs) as [p| | |] eqn:B; try discriminate.
  destruct (pool_attribute b) as [a|] eqn:A; [|discriminate]. inversion H as [E]. clear H E. exists p. split; [reflexivity|].
  intros F Hn. pose proof (re_built X fuel _ fs p (re_empty X) Pl B) as R. pose proof (names_unique X p SO R) as ND.
  rewrite attributes_app, attributes_messages. fold (message_names p).
  rewrite (expansions_names parses b s e a _ _ T P A (unrelated_attributes c _ U)).
  rewrite Forall_forall in F.
  assert (path_matches n (46 :: n) = true) as Mn by (apply matches_iff; auto).
  assert (In n (filter (fun n0 => path_matches n0 (46 :: n)) (message_names p))) as Hf by (apply filter_In; auto).
  assert (forall m, In m (message_names p) -> ends_in n m ->
    (2 <= length (filter (fun n0 => path_matches n0 (46%N :: n)) (message_names p)))%nat) as K.
  { intros m Hm Em. assert (m <> n) as D.
    { intros ->. destruct Em as [r Em]. apply (f_equal (@length N)) in Em. rewrite !app_length in Em. cbn in Em. lia. }
    assert (In m (filter (fun n0 => path_matches n0 (46 :: n)) (message_names p))) as Hm'.
    { apply filter_In. split; [exact Hm|]. apply matches_iff; auto. }
    destruct (filter (fun n0 => path_matches n0 (46 :: n)) (message_names p)) as [|x [|y r]]; cbn in *; [contradiction| |lia].
    destruct Hf as [-> |[]]. destruct Hm' as [-> |[]]. contradiction D. reflexivity. }
  split; [|intros m Hm Em; rewrite map_length; exact (K m Hm Em)]. split.
  - intros E m Hm Em. specialize (K m Hm Em). apply (f_equal (@length _)) in E. rewrite map_length in E. cbn in E. lia.
  - intros H. rewrite (NoDup_filter_one _ _ n ND Hn Mn); [reflexivity|].
    intros m Hm Em. apply matches_iff in Em; auto. destruct Em as [Em|Em]; [exact Em|]. contradiction (H m Hm Em).
Qed.
Print Assumptions C69_one_implementation_partial.

(** configuring ends well exactly if the protos compile to a set that a pool
    accepts and an expression was given; without an expression nothing is added *)
Theorem C69_configured X fuel b set c :
  ((exists c', configure X fuel b set c = Done c') <->
   (exists fs p, set = Some fs /\ build_files X fuel empty_pool fs = Built p) /\ exists s e, told b s e) /\
  (forall c', configure X fuel b set c = Failed c' -> c' = c).
Proof.
  split.
  - split.
    + intros [c' H]. destruct set as [fs|]; [|discriminate]. cbn in H. destruct (build_files X fuel empty_pool fs) as [p| | |] eqn:B; try discriminate.
      split; [eauto|]. unfold pool_attribute in H. destruct (b_pool b) as [x|] eqn:E1; [exists (FromPool x), x; cbn; auto|].
      destruct (b_bytes b) as [x|] eqn:E2; [exists (FromBytes x), x; cbn; auto|discriminate].
    + intros [[fs [p [-> B]]] [s [e T]]]. cbn. rewrite B. unfold pool_attribute. destruct s as [x|x]; cbn in T.
      * destruct T as [-> ->]. eauto.
      * destruct T as [-> [-> ->]]. eauto.
  - intros c' H. destruct set as [fs|]; cbn in H; [|inversion H; reflexivity].
    destruct (build_files X fuel empty_pool fs); try discriminate. destruct (pool_attribute b); inversion H. reflexivity.
Qed.
Print Assumptions C69_configured.

(** enums and oneofs, which the paths may match too, get no code *)
Theorem C69_only_messages parses s l x : s <> AStruct -> In x (expansions parses s l) -> x = NoCode.
Proof. unfold expansions. intros Hs H. apply in_flat_map in H. destruct H as [a [_ H]]. destruct a; cbn in H; try contradiction.
  destruct H as [<- |[]]. destruct s; [contradiction|reflexivity|reflexivity]. Qed.
Print Assumptions C69_only_messages.

(** Configuring leaves all attributes that were there, in their order and before
    its own, and adds attributes only under the full names of messages; it panics
    exactly if the set is read and is not a valid set. *)
Theorem C69_adds X fuel b set c :
  (forall c', configure X fuel b set c = Done c' ->
   exists fs p added, set = Some fs /\ build_files X fuel empty_pool fs = Built p /\ c' = c ++ added /\
     forall path a, In (path, a) added -> In path (message_names p)) /\
  (configure X fuel b set c = Panicked <-> exists fs, set = Some fs /\ forall p, build_files X fuel empty_pool fs <> Built p).
Proof.
  split.
  - intros c' H. destruct set as [fs|]; [|discriminate]. cbn in H. destruct (build_files X fuel empty_pool fs) as [p| | |] eqn:B; try discriminate.
    destruct (pool_attribute b) as [a|]; [|discriminate]. inversion H. exists fs, p. eexists. split; [reflexivity|]. split; [exact B|]. split; [reflexivity|].
    intros path x Hx. apply in_flat_map in Hx. destruct Hx as [m [Hm Hx]]. unfold message_names. apply in_map_iff. exists m.
    split; [|exact Hm]. cbn in Hx. destruct Hx as [Hx|[Hx|[Hx|[]]]]; inversion Hx; reflexivity.
  - destruct set as [fs|]; cbn; [|split; [discriminate|intros [fs [E _]]; discriminate]].
    destruct (build_files X fuel empty_pool fs) as [p| | |] eqn:B;
      [|split; [intros _; exists fs; rewrite B; split; [reflexivity|discriminate]|reflexivity]..].
    split; [destruct (pool_attribute b); discriminate|]. intros [fs' [E H]]. inversion E; subst. destruct (H p B).
Qed.
Print Assumptions C69_adds.

(** What the builder was told: the last expression for a pool if there was one,
    else the last one for bytes. *)
Inductive setting := SetPool (e : str) | SetBytes (e : str).
Definition setting_call (b : builder) (c : setting) : builder :=
  match c with SetPool e => set_pool e b | SetBytes e => set_bytes e b end.
Theorem C69_told calls s e : told (fold_left setting_call calls new_builder) s e <->
  (s = FromPool e /\ exists l r, calls = l ++ SetPool e :: r /\ forall x, ~ In (SetPool x) r) \/
  (s = FromBytes e /\ (forall x, ~ In (SetPool x) calls) /\ exists l r, calls = l ++ SetBytes e :: r /\ forall x, ~ In (SetBytes x) r).
Proof.
  set (B := fold_left setting_call calls new_builder).
  assert ((forall e, b_pool B = Some e <-> exists l r, calls = l ++ SetPool e :: r /\ forall x, ~ In (SetPool x) r) /\
          (b_pool B = None <-> forall x, ~ In (SetPool x) calls) /\
          (forall e, b_bytes B = Some e <-> exists l r, calls = l ++ SetBytes e :: r /\ forall x, ~ In (SetBytes x) r)) as [P [N Y]].
  { subst B. induction calls as [|c calls IH] using rev_ind.
    - cbn. split; [|split].
      + intros x. split; [discriminate|]. intros [l [r [H _]]]. destruct l; discriminate.
      + split; [intros _ x []|reflexivity].
      + intros x. split; [discriminate|]. intros [l [r [H _]]]. destruct l; discriminate.
    - rewrite fold_left_app. cbn [fold_left]. destruct IH as [P [N Y]]. set (B := fold_left setting_call calls new_builder) in *.
      assert (L : forall l k r, calls ++ [c] = l ++ k :: r -> (r = [] /\ k = c /\ l = calls) \/ exists r', r = r' ++ [c] /\ calls = l ++ k :: r').
      { intros l k r H. destruct r as [|z r _] using rev_ind.
        - apply app_inj_tail in H. destruct H. auto.
        - right. exists r. change (l ++ k :: r ++ [z]) with (l ++ (k :: r) ++ [z]) in H. rewrite app_assoc in H. apply app_inj_tail in H.
          destruct H as [H ->]. auto. }
      destruct c as [y|y]; cbn [setting_call set_pool set_bytes b_pool b_bytes]; (split; [|split]).
      + intros x. split.
        * intros E. inversion E; subst. exists calls, []. split; [reflexivity|]. intros z [].
        * intros [l [r [H K]]]. destruct (L _ _ _ H) as [[-> [E ->]]|[r' [-> _]]]; [inversion E; reflexivity|].
          destruct (K y). apply in_or_app. right. left. reflexivity.
      + split; [discriminate|]. intros H. destruct (H y). apply in_or_app. right. left. reflexivity.
      + intros x. rewrite Y. split.
        * intros [l [r [-> K]]]. exists l, (r ++ [SetPool y]). rewrite <- app_assoc. split; [reflexivity|]. intros z Hz. apply in_app_or in Hz.
          destruct Hz as [Hz|[Hz|[]]]; [exact (K _ Hz)|discriminate].
        * intros [l [r [H K]]]. destruct (L _ _ _ H) as [[_ [E _]]|[r' [-> E]]]; [discriminate|]. exists l, r'. split; [exact E|].
          intros z Hz. apply (K z). apply in_or_app. left. exact Hz.
      + intros x. rewrite P. split.
        * intros [l [r [-> K]]]. exists l, (r ++ [SetBytes y]). rewrite <- app_assoc. split; [reflexivity|]. intros z Hz. apply in_app_or in Hz.
          destruct Hz as [Hz|[Hz|[]]]; [exact (K _ Hz)|discriminate].
        * intros [l [r [H K]]]. destruct (L _ _ _ H) as [[_ [E _]]|[r' [-> E]]]; [discriminate|]. exists l, r'. split; [exact E|].
          intros z Hz. apply (K z). apply in_or_app. left. exact Hz.
      + rewrite N. split; intros H z Hz.
        * apply in_app_or in Hz. destruct Hz as [Hz|[Hz|[]]]; [exact (H _ Hz)|discriminate].
        * apply (H z). apply in_or_app. left. exact Hz.
      + intros x. split.
        * intros E. inversion E; subst. exists calls, []. split; [reflexivity|]. intros z [].
        * intros [l [r [H K]]]. destruct (L _ _ _ H) as [[-> [E ->]]|[r' [-> _]]]; [inversion E; reflexivity|].
          destruct (K y). apply in_or_app. right. left. reflexivity. }
  destruct s as [x|x]; cbn [told]; split.
  - intros [-> H]. left. split; [reflexivity|]. apply P. exact H.
  - intros [[E H]|[E _]]; [|discriminate]. inversion E. split; [reflexivity|]. apply P. exact H.
  - intros [-> [H1 H2]]. right. split; [reflexivity|]. split; [apply N; exact H1|apply Y; exact H2].
  - intros [[E _]|[E [H1 H2]]]; [discriminate|]. inversion E. split; [reflexivity|]. split; [apply N; exact H1|apply Y; exact H2].
Qed.
Print Assumptions C69_told.

(** The macro by itself, on types written by hand: the arguments of all its
    attributes count as one list, of known arguments with literals (or with
    nothing after the equals sign), and the last one of each counts. *)
Definition arg_ok (kv : str * given) : Prop :=
  ((fst kv = k_pool \/ fst kv = k_bytes) /\ ((exists e, snd kv = GStr e) \/ snd kv = GNothing)) \/
  (fst kv = k_name /\ snd kv <> GOther).
Definition all_args (l : list attribute) : list (str * given) := concat (reflect_attrs l).
(** the last value given for the key, if it is a literal *)
Inductive finally (key : str) : list (str * given) -> given -> Prop :=
| fi_last l g : g <> GNothing -> finally key (l ++ [(key, g)]) g
| fi_more l kv g : fst kv <> key -> finally key l g -> finally key (l ++ [kv]) g.
Definition chosen (args : list (str * given)) (s : source) (e : str) : Prop :=
  match s with
  | FromPool x => x = e /\ finally k_pool args (GStr e)
  | FromBytes x => x = e /\ (forall g, ~ finally k_pool args g) /\ finally k_bytes args (GStr e)
  end.

Lemma finally_nil key g : ~ finally key [] g.
Proof. intros H. inversion H as [l g' _ E|l kv g' _ _ E]; destruct l; discriminate. Qed.
Lemma finally_snoc key l kv g : finally key (l ++ [kv]) g <->
  (fst kv = key /\ snd kv = g /\ g <> GNothing) \/ (fst kv <> key /\ finally key l g).
Proof.
  split.
  - intros H. inversion H as [l' g' Hg E|l' kv' g' Hk Hf E]; apply app_inj_tail in E; destruct E as [-> <-]; auto.
  - intros [[E [Eg Hg]]|[Hk Hf]]; [|apply fi_more; assumption]. destruct kv as [k g']. cbn in *. subst. apply fi_last. exact Hg.
Qed.
Lemma parse_snoc l kv : forall st, parse_all (l ++ [kv]) st = match parse_all l st with Some a => parse_arg a kv | None => None end.
Proof.
  induction l as [|x l IH]; intros st; cbn.
  - destruct (parse_arg st kv); reflexivity.
  - destruct (parse_arg st x); [apply IH|reflexivity].
Qed.
Lemma parse_arg_spec a kv r : parse_arg a kv = Some r <->
  arg_ok kv /\
  r = Args (if bytes_eqb (fst kv) k_name then (match snd kv with GNothing => None | g => Some g end) else a_name a)
           (if bytes_eqb (fst kv) k_pool then (match snd kv with GStr e => Some e | _ => None end) else a_pool a)
           (if bytes_eqb (fst kv) k_bytes then (match snd kv with GStr e => Some e | _ => None end) else a_bytes a).
Proof.
  destruct kv as [k g]. unfold parse_arg. cbn [fst snd]. split.
  - intros H. split.
    + unfold arg_ok. cbn [fst snd].
      destruct (bytes_eqb k k_pool) eqn:E1; [apply bytes_eqb_eq in E1; left; split; [left; exact E1|]|].
      { destruct g; cbn in H; try discriminate; [left; eexists; reflexivity|right; reflexivity]. }
      destruct (bytes_eqb k k_bytes) eqn:E2; [apply bytes_eqb_eq in E2; left; split; [right; exact E2|]|].
      { destruct g; cbn in H; try discriminate; [left; eexists; reflexivity|right; reflexivity]. }
      destruct (bytes_eqb k k_name) eqn:E3; [apply bytes_eqb_eq in E3; right; split; [exact E3|]|discriminate].
      intros ->. discriminate.
    + destruct (bytes_eqb k k_pool) eqn:E1; [apply bytes_eqb_eq in E1; subst k|].
      { change (bytes_eqb k_pool k_name) with false. change (bytes_eqb k_pool k_bytes) with false.
        destruct g; cbn in H; inversion H; reflexivity. }
      destruct (bytes_eqb k k_bytes) eqn:E2; [apply bytes_eqb_eq in E2; subst k|].
      { change (bytes_eqb k_bytes k_name) with false. destruct g; cbn in H; inversion H; reflexivity. }
      destruct (bytes_eqb k k_name); [|discriminate]. destruct g; cbn in H; inversion H; reflexivity.
  - intros [[[[E|E] G]|[E G]] ->]; cbn [fst snd] in *; subst k.
    + rewrite bytes_eqb_refl. change (bytes_eqb k_pool k_name) with false. change (bytes_eqb k_pool k_bytes) with false.
      destruct G as [[e ->]| ->]; reflexivity.
    + rewrite bytes_eqb_refl. change (bytes_eqb k_bytes k_pool) with false. change (bytes_eqb k_bytes k_name) with false.
      destruct G as [[e ->]| ->]; reflexivity.
    + rewrite bytes_eqb_refl. change (bytes_eqb k_name k_pool) with false. change (bytes_eqb k_name k_bytes) with false.
      destruct g; try reflexivity. contradiction G. reflexivity.
Qed.
Lemma parse_all_spec l r : parse_all l (Args None None None) = Some r ->
  Forall arg_ok l /\ (forall g, a_name r = Some g <-> finally k_name l g) /\
  (forall e, a_pool r = Some e <-> finally k_pool l (GStr e)) /\ (forall g, finally k_pool l g -> exists e, g = GStr e) /\
  (forall e, a_bytes r = Some e <-> finally k_bytes l (GStr e)).
Proof.
  revert r. induction l as [|kv l IH] using rev_ind; intros r H.
  - cbn in H. inversion H; subst. cbn. split; [constructor|].
    split; [intros g; split; [discriminate|intros Q; destruct (finally_nil _ _ Q)]|].
    split; [intros g; split; [discriminate|intros Q; destruct (finally_nil _ _ Q)]|].
    split; [intros g Q; destruct (finally_nil _ _ Q)|].
    intros g; split; [discriminate|intros Q; destruct (finally_nil _ _ Q)].
  - rewrite parse_snoc in H. destruct (parse_all l (Args None None None)) as [a|]; [|discriminate].
    destruct (IH a eq_refl) as [F [A [B [C D]]]]. apply parse_arg_spec in H. destruct H as [Ok ->]. cbn [a_name a_pool a_bytes].
    split; [apply Forall_app; split; [exact F|constructor; [exact Ok|constructor]]|].
    destruct kv as [k g0]. cbn [fst snd] in *.
    split; [|split; [|split]].
    + intros g. rewrite finally_snoc. cbn [fst snd]. destruct (bytes_eqb k k_name) eqn:E.
      * apply bytes_eqb_eq in E. destruct g0; split; try discriminate.
        all: try (intros Q; inversion Q; subst; left; repeat split; try assumption; discriminate).
        all: intros [[_ [Q1 Q2]]|[Q _]]; try contradiction; subst; try reflexivity. contradiction Q2; reflexivity.
      * assert (k <> k_name) as Ne by (intros ->; rewrite bytes_eqb_refl in E; discriminate). rewrite A.
        split; [auto|]. intros [[Q _]|[_ Q]]; [contradiction|exact Q].
    + intros e. rewrite finally_snoc. cbn [fst snd]. destruct (bytes_eqb k k_pool) eqn:E.
      * apply bytes_eqb_eq in E. destruct g0; split; try discriminate.
        all: try (intros Q; inversion Q; subst; left; repeat split; try assumption; discriminate).
        all: intros [[_ [Q1 Q2]]|[Q _]]; try contradiction; try discriminate. inversion Q1. reflexivity.
      * assert (k <> k_pool) as Ne by (intros ->; rewrite bytes_eqb_refl in E; discriminate). rewrite B.
        split; [auto|]. intros [[Q _]|[_ Q]]; [contradiction|exact Q].
    + intros g Q. rewrite finally_snoc in Q. cbn [fst snd] in Q. destruct Q as [[-> [<- Q]]|[_ Q]]; [|exact (C g Q)].
      destruct Ok as [[_ [Ok|Ok]]|[Ok _]]; cbn in *; [exact Ok|contradiction|discriminate].
    + intros e. rewrite finally_snoc. cbn [fst snd]. destruct (bytes_eqb k k_bytes) eqn:E.
      * apply bytes_eqb_eq in E. destruct g0; split; try discriminate.
        all: try (intros Q; inversion Q; subst; left; repeat split; try assumption; discriminate).
        all: intros [[_ [Q1 Q2]]|[Q _]]; try contradiction; try discriminate. inversion Q1. reflexivity.
      * assert (k <> k_bytes) as Ne by (intros ->; rewrite bytes_eqb_refl in E; discriminate). rewrite D.
        split; [auto|]. intros [[Q _]|[_ Q]]; [contradiction|exact Q].
Qed.
Lemma parse_all_ok l : Forall arg_ok l -> exists r, parse_all l (Args None None None) = Some r.
Proof.
  induction l as [|kv l IH] using rev_ind; intros F; [eexists; reflexivity|]. apply Forall_app in F. destruct F as [F1 F2].
  destruct (IH F1) as [a E]. rewrite parse_snoc, E. inversion F2; subst. eexists. apply parse_arg_spec. split; [assumption|reflexivity].
Qed.
Theorem C69_macro parses l s n :
  expand parses AStruct l = Implement s n <->
  reflect_attrs l <> [] /\ Forall arg_ok (all_args l) /\ finally k_name (all_args l) n /\
  exists e, chosen (all_args l) s e /\ parses e = true.
Proof.
  unfold expand, parse_args, all_args. destruct (reflect_attrs l) as [|x r] eqn:Q.
  { split; [discriminate|]. intros [H _]. contradiction H. reflexivity. }
  generalize (concat (x :: r)). clear Q. intros args. split.
  - intros H. destruct (parse_all args (Args None None None)) as [a|] eqn:E; [|discriminate].
    destruct (parse_all_spec _ _ E) as [F [A [B [C D]]]]. split; [discriminate|]. split; [exact F|].
    unfold args_source in H. destruct (a_pool a) as [e|] eqn:Ep.
    + destruct (parses e) eqn:P; [|discriminate]. destruct (a_name a) as [g|] eqn:En; [|discriminate]. inversion H; subst.
      split; [apply A; reflexivity|]. exists e. split; [split; [reflexivity|apply B; reflexivity]|exact P].
    + destruct (a_bytes a) as [e|] eqn:Eb; [|discriminate].
      destruct (parses e) eqn:P; [|discriminate]. destruct (a_name a) as [g|] eqn:En; [|discriminate]. inversion H; subst.
      split; [apply A; reflexivity|]. exists e. split; [|exact P]. split; [reflexivity|]. split; [|apply D; reflexivity].
      intros g Hg. destruct (C g Hg) as [e' ->]. apply B in Hg. discriminate.
  - intros [_ [F [N [e [Ch P]]]]]. destruct (parse_all_ok args F) as [a E]. rewrite E.
    destruct (parse_all_spec _ _ E) as [_ [A [B [C D]]]]. apply A in N. rewrite N. unfold args_source. destruct s as [x0|x0]; cbn in Ch.
    + destruct Ch as [-> Ch]. apply B in Ch. rewrite Ch, P. reflexivity.
    + destruct Ch as [-> [Ch1 Ch2]]. apply D in Ch2. destruct (a_pool a) as [e'|] eqn:Ep.
      * destruct (Ch1 (GStr e')). apply B. reflexivity.
      * rewrite Ch2, P. reflexivity.
Qed.
Print Assumptions C69_macro.

(** descriptor() with the name that was put on a type: in every pool that was made
    with the file that declares the message, it finds that message *)
Theorem C69_descriptor X p k f path n m : search_ok X -> reachable X p ->
  nth_error (pool_files p) k = Some f -> declares_name f path n (IMessage m) -> hd 0 n <> 46 ->
  exists i mi, descriptor_of p n = Some i /\ nth_error (p_messages p) i = Some mi /\
    id_full (m_id mi) = n /\ id_file (m_id mi) = k /\ id_path (m_id mi) = path.
Proof.
  intros SO R Hf D Hd. destruct (C36_lookup_exact X p DkMessage SO R) as [_ [H _]].
  destruct (H k f path n (IMessage m) Hf D eq_refl) as [i [id [A [B [C [E [_ [_ G]]]]]]]]. cbn in A. rewrite nth_error_map in A.
  destruct (nth_error (p_messages p) i) as [mi|] eqn:Q; [|discriminate]. cbn in A. inversion A; subst. exists i, mi. unfold descriptor_of.
  split; [exact (G Hd)|]. auto.
Qed.
Print Assumptions C69_descriptor.

(** ** The global pool *)

Lemma serial_files X p log q : search_ok X -> reachable X p -> Forall (fun e => sane_entry (snd e)) log -> serial X p log q ->
  forall g, In g (pool_files q) -> In g (pool_files p) \/ exists i gs, In (i, Added gs) log /\ In g gs.
Proof.
  intros SO R F S. revert F. induction S as [|log q i S IH|log q q' i fuel fs S IH H|log q q' i fuel fs es S IH H]; intros F g Hg.
  - left. exact Hg.
  - apply Forall_app in F. destruct (IH (proj1 F) g Hg) as [K|[j [gs [K1 K2]]]]; [left; exact K|]. right. exists j, gs. rewrite in_app_iff. auto.
  - apply Forall_app in F. destruct F as [F1 F2]. destruct (serial_reachable X p log q SO R F1 S) as [R' _].
    rewrite (built_files X SO _ _ _ _ (reachable_Inv _ _ SO R') H) in Hg. apply in_app_or in Hg. destruct Hg as [Hg|Hg].
    + destruct (IH F1 g Hg) as [K|[j [gs [K1 K2]]]]; [left; exact K|]. right. exists j, gs. rewrite in_app_iff. auto.
    + right. exists i, fs. rewrite in_app_iff. split; [right; left; reflexivity|]. apply filter_In in Hg. apply Hg.
  - apply Forall_app in F. destruct F as [F1 F2]. inversion F2 as [|? ? Fe _]; subst. cbn in Fe.
    destruct (serial_reachable X p log q SO R F1 S) as [R' _].
    pose proof (rejected_same X _ _ _ _ _ (reachable_Inv _ _ SO R') Fe H) as Sm. destruct Sm as [_ [_ [E3 _]]].
    assert (pool_files q' = pool_files q) as E by (unfold pool_files; rewrite E3; reflexivity). rewrite E in Hg.
    destruct (IH F1 g Hg) as [K|[j [gs [K1 K2]]]]; [left; exact K|]. right. exists j, gs. rewrite in_app_iff. auto.
Qed.

Lemma log_asked X p progs s : gsteps X (start p progs) s -> forall i gs, In (i, Added gs) (g_log s) ->
  exists prog fuel, In prog progs /\ In (Global.Add fuel gs) prog.
Proof.
  intros H i gs He.
  assert (exists prog, nth_error progs i = Some prog) as [prog Hp].
  { assert (length (g_threads s) = length progs) as L.
    { clear He. induction H as [|k s s' H IH St]; [apply map_length|].
      rewrite <- IH. destruct St; cbn; try apply upd_length; reflexivity. }
    revert He. generalize (Added gs). intros e He. revert i e He. induction H as [|k s s' H IH St]; intros i e He; [destruct He|].
    assert (length (g_threads s) = length progs) as L'.
    { rewrite <- L. destruct St; cbn; try (symmetry; apply upd_length); reflexivity. }
    specialize (IH L'). destruct St; cbn [g_log g_threads] in *; eauto;
      apply in_app_or in He; destruct He as [He|[He|[]]]; eauto; inversion He; subst;
      match goal with Hi : nth_error ?ts i = Some (Th _ _) |- _ => assert (i < length ts)%nat by (apply nth_error_Some; congruence) end;
      destruct (nth_error progs i) eqn:Q; eauto; apply nth_error_None in Q; lia. }
  destruct (C30_program_order X p progs s H i prog Hp) as [t [ans [_ [E F]]]].
  assert (In (Added gs) (of_thread i (g_log s))) as Hin.
  { unfold of_thread. apply in_map_iff. exists (i, Added gs). split; [reflexivity|]. apply filter_In. cbn. rewrite Nat.eqb_refl. auto. }
  apply In_nth_error in Hin. destruct Hin as [j Hj]. destruct (F2_nth_r _ _ _ F _ _ Hj) as [r [Hr A]].
  destruct r as [|fuel fs]; cbn in A; [contradiction|]. subst fs. exists prog, fuel.
  split; [eapply nth_error_In; exact Hp|]. rewrite E. apply in_or_app. left. eapply nth_error_In. exact Hr.
Qed.

(** Types that take their descriptors from bytes: descriptor() adds the set to the
    global pool, once for each type and before anything is looked up
    (std::sync::Once), then looks into a copy of the pool (lib.rs:106-117 of the
    macro).  Whatever threads do with the global pool, and in whatever order:
    every copy taken after the set was added has the message, provided that nothing
    else was ever added under the name of a file of the set. *)
Theorem C69_global_partial X p progs s fs : search_ok X -> reachable X p ->
  (forall prog r, In prog progs -> In r prog -> sane r) ->
  (forall f g, In f fs -> fl_name g = fl_name f ->
     In g (pool_files p) \/ (exists prog fuel gs, In prog progs /\ In (Global.Add fuel gs) prog /\ In g gs) -> g = f) ->
  gsteps X (start p progs) s ->
  forall log1 log2 i j q f path n m,
    g_log s = log1 ++ (i, Added fs) :: log2 -> In (j, Snapped q) log2 ->
    In f fs -> declares_name f path n (IMessage m) -> hd 0 n <> 46 ->
    exists k mi, descriptor_of q n = Some k /\ nth_error (p_messages q) k = Some mi /\
      id_full (m_id mi) = n /\ id_path (m_id mi) = path /\ nth_error (pool_files q) (id_file (m_id mi)) = Some f.
Proof.
  intros SO R Sn Same H log1 log2 i j q f path n m E Hq Hf D Hd.
  destruct (C30_snapshots_grow X p progs s SO R Sn H log1 log2 i _ j q E Hq) as [Rq [_ Hg]].
  destruct (Hg f Hf) as [g [Hin Hname]].
  assert (g = f) as ->.
  { apply (Same f g Hf Hname). pose proof (log_sane X p progs s Sn H) as F.
    destruct (C30_linearizable X p progs s H) as [r [S _]].
    apply in_split in Hq. destruct Hq as [l1 [l2 Hq]]. 
    assert (g_log s = (log1 ++ (i, Added fs) :: l1) ++ (j, Snapped q) :: l2) as E'.
    { rewrite E, Hq, <- app_assoc. reflexivity. }
    rewrite E' in S. destruct (serial_split _ _ _ _ _ S) as [q0 [S0 S1]].
    destruct (serial_cons _ _ _ _ _ S1) as [q1 [S2 _]]. apply snap_inv in S2. destruct S2 as [-> _].
    assert (Forall (fun e => sane_entry (snd e)) (log1 ++ (i, Added fs) :: l1)) as F1.
    { rewrite E' in F. apply Forall_app in F. apply F. }
    destruct (serial_files X p _ _ SO R F1 S0 g Hin) as [K|[j' [gs [K1 K2]]]]; [left; exact K|]. right.
    destruct (log_asked X p progs s H j' gs) as [prog [fuel [A B]]]; [rewrite E'; apply in_or_app; left; exact K1|].
    exists prog, fuel, gs. auto. }
  apply In_nth_error in Hin. destruct Hin as [k Hk].
  destruct (C69_descriptor X q k f path n m SO Rq Hk D Hd) as [x [mi [A [B [C [G1 G2]]]]]].
  exists x, mi. rewrite G1. auto.
Qed.
Print Assumptions C69_global_partial.

(** ** Examples *)

Definition any_expr (e : str) : bool := match e with [] => false | _ => true end.
Definition demo_builder : builder := set_pool (b "crate::POOL") new_builder.

(** the types of the example file each get one implementation *)
Definition config_of (r : configured) : config := match r with Done c => c | _ => [] end.
Lemma config_done r : match r with Done _ => true | _ => false end = true -> r = Done (config_of r).
Proof. destruct r; try discriminate. reflexivity. Qed.
Definition demo_config : config := [(b "a.b", Unrelated (b "#[x]")); (b ".", Unrelated (b "#[y]"))].
Lemma names_ab : message_names pool_ab = [b "a.b.M"; b "a.b.M.Inner"].
Proof. vm_compute. reflexivity. Qed.
Lemma proper_names l : forallb (fun n => match n with [] => false | c :: _ => negb (c =? 46) end) l = true -> Forall proper l.
Proof.
  intros H. rewrite forallb_forall in H. apply Forall_forall. intros n Hn. specialize (H n Hn). destruct n as [|c n]; [discriminate|].
  split; [discriminate|]. cbn. intros ->. discriminate.
Qed.
Example C69_applies : exists c',
  configure demo_externs 10 demo_builder (Some [file_ab]) demo_config = Done c' /\
  message_names pool_ab = [b "a.b.M"; b "a.b.M.Inner"] /\ Forall proper (message_names pool_ab) /\
  expansions any_expr AStruct (attributes_of c' (46 :: b "a.b.M")) = [Implement (FromPool (b "crate::POOL")) (GStr (b "a.b.M"))] /\
  expansions any_expr AStruct (attributes_of c' (46 :: b "a.b.M.Inner")) = [Implement (FromPool (b "crate::POOL")) (GStr (b "a.b.M.Inner"))] /\
  expansions any_expr AnEnum (attributes_of c' (46 :: b "a.b.M.choice")) = [] /\
  descriptor_of pool_ab (b "a.b.M.Inner") = Some 1%nat.
Proof.
  exists (config_of (configure demo_externs 10 demo_builder (Some [file_ab]) demo_config)).
  split; [apply config_done; vm_compute; reflexivity|]. pose proof names_ab as E. split; [exact E|]. rewrite E.
  split; [apply (Forall_impl proper (fun n H => H)); apply proper_names; vm_compute; reflexivity|].
  split; [vm_compute; reflexivity|]. split; [vm_compute; reflexivity|]. split; [vm_compute; reflexivity|]. vm_compute. reflexivity.
Qed.

(** two files with packages [b] and [a.b] *)
Definition file_short : file :=
  File (b "short.proto") (b "b") [] [] [] [DP (b "M") [] [] [] [] [] [] false []] [] [] [] (Some b_proto2).
(** Both are accepted, and a.b.M ends in b.M: the type generated for a.b.M gets the
    macro twice, each time with the name of the later message; here that is b.M *)
Theorem C69_refuted_suffix : exists c' p,
  configure demo_externs 10 demo_builder (Some [file_ab; file_short]) [] = Done c' /\
  build_files demo_externs 10 empty_pool [file_ab; file_short] = Built p /\
  message_names p = [b "a.b.M"; b "a.b.M.Inner"; b "b.M"] /\
  expansions any_expr AStruct (attributes_of c' (46 :: b "a.b.M")) =
    [Implement (FromPool (b "crate::POOL")) (GStr (b "b.M")); Implement (FromPool (b "crate::POOL")) (GStr (b "b.M"))].
Proof.
  exists (config_of (configure demo_externs 10 demo_builder (Some [file_ab; file_short]) [])), (built (build_files demo_externs 10 empty_pool [file_ab; file_short])).
  split; [apply config_done; vm_compute; reflexivity|]. split; [vm_compute; reflexivity|]. split; vm_compute; reflexivity.
Qed.
Print Assumptions C69_refuted_suffix.

(** another file under the name of one that the global pool has *)
Definition file_other : file :=
  File (b "ab.proto") (b "o") [] [] [] [DP (b "New") [] [] [] [] [] [] false []] [] [] [] (Some b_proto2).
(** Adding it is answered with success, and descriptor() then panics *)
Theorem C69_refuted_known_file : exists s,
  gsteps demo_externs (start pool_ab [[Global.Add 10 [file_other]; Snapshot]]) s /\
  g_log s = [(0%nat, Added [file_other]); (0%nat, Snapped pool_ab)] /\
  declares_name file_other [4%Z; 0%Z] (b "o.New") (IMessage (DP (b "New") [] [] [] [] [] [] false [])) /\
  descriptor_of pool_ab (b "o.New") = None.
Proof.
  eexists. split.
  - eapply gs_step. eapply gs_step. eapply gs_step. eapply gs_step. eapply gs_step.
    { apply gs_refl. }
    { eapply (g_acquire _ _ _ _ 0%nat). reflexivity. }
    { eapply g_begin. reflexivity. }
    { eapply (g_built demo_externs _ _ _ _ _ _ _ _ _ pool_ab); [reflexivity|].
      apply C23_known_files_skipped. intros f [<- |[]]. vm_compute. discriminate. }
    { eapply (g_acquire _ _ _ _ 0%nat). reflexivity. }
    { eapply g_snap. reflexivity. }
  - split; [reflexivity|]. split; [|vm_compute; reflexivity].
    exists (b "o"). split; [|reflexivity]. constructor. apply (ma_top file_other 0). reflexivity.
Qed.
Print Assumptions C69_refuted_known_file.

Lemma built_both : build_files demo_externs 10 pool_ab [file_ab; file_cd] = Built pool_abcd.
Proof. vm_compute. reflexivity. Qed.
(** an execution that C69_global_partial is about: one thread asks for the descriptor of a
    type of file_cd, another adds file_ab, which it imports *)
Example C69_global_applies : exists s q,
  gsteps demo_externs (start pool_ab [[Global.Add 10 [file_ab; file_cd]; Snapshot]; [Global.Add 10 [file_ab]]]) s /\
  g_log s = [(1%nat, Added [file_ab]); (0%nat, Added [file_ab; file_cd]); (0%nat, Snapped q)] /\
  descriptor_of q (b "c.N") = Some 2%nat.
Proof.
  eexists. exists pool_abcd. split.
  - eapply gs_step. eapply gs_step. eapply gs_step. eapply gs_step. eapply gs_step. eapply gs_step. eapply gs_step. eapply gs_step.
    { apply gs_refl. }
    { eapply (g_acquire _ _ _ _ 1%nat). reflexivity. }
    { eapply g_begin. reflexivity. }
    { eapply (g_built demo_externs _ _ _ _ _ _ _ _ _ pool_ab); [reflexivity|].
      apply C23_known_files_skipped. intros f [<- |[]]. vm_compute. discriminate. }
    { eapply (g_acquire _ _ _ _ 0%nat). reflexivity. }
    { eapply g_begin. reflexivity. }
    { eapply (g_built demo_externs _ _ _ _ _ _ _ _ _ pool_abcd); [reflexivity|exact built_both]. }
    { eapply (g_acquire _ _ _ _ 0%nat). reflexivity. }
    { eapply g_snap. reflexivity. }
  - split; [reflexivity|vm_compute; reflexivity].
Qed.
