(** The package names the API shows, and how full names are made of them (C75). *)
From Coq Require Import String.
From Verif Require Import Base BaseProofs Value Descr Proto Build VisitProofs EventProofs BuildFrame BuildNames BuildQuiet BuildResolve BuildInv DeclSpec DeclProofs PoolFacts PoolMembers ExampleFiles Prop_Pool Prop_Members Prop_Declared Nav.
From Coq Require Import List Lia ZArith NArith.
Import ListNotations.
Local Open Scope list_scope.

(** the parts of a full name, from the outside in *)
Definition joined_to (pkg : str) (names : list str) : str := fold_left dotted names pkg.

(** [id], declared in [f], is named after the package of [f], the messages
    around it, and itself *)
Definition named_in (f : file) (id : ident) : Prop :=
  exists outer, id_full id = joined_to (fl_package f) (outer ++ [id_name id]) /\
    (* one message for each two further numbers of the path *)
    length (id_path id) = (2 * (length outer + 1))%nat /\
    forall k n, nth_error outer k = Some n ->
      exists m, message_at f (firstn (2 * (k + 1)) (id_path id)) (joined_to (fl_package f) (firstn k outer)) m /\ dp_name m = n.

Lemma joined_app pkg l n : joined_to pkg (l ++ [n]) = dotted (joined_to pkg l) n.
Proof. unfold joined_to. rewrite fold_left_app. reflexivity. Qed.

(** the messages around a place in a file *)
Definition around (f : file) (path : list Z) (scope : str) : Prop :=
  exists outer, scope = joined_to (fl_package f) outer /\ length path = (2 * (length outer + 1))%nat /\
    forall k n, nth_error outer k = Some n ->
      exists m, message_at f (firstn (2 * (k + 1)) path) (joined_to (fl_package f) (firstn k outer)) m /\ dp_name m = n.
Lemma around_top f a c : around f [a; c] (fl_package f).
Proof. exists []. split; [reflexivity|]. split; [reflexivity|]. intros [|k] n H; discriminate. Qed.
Lemma around_in f path scope m a c : message_at f path scope m -> around f path scope ->
  around f (path ++ [a; c]) (dotted scope (dp_name m)).
Proof.
  intros M (outer & E & L & H). exists (outer ++ [dp_name m]). split; [rewrite joined_app, E; reflexivity|].
  split; [rewrite !app_length, L; cbn [length]; lia|]. intros k n Hk.
  destruct (Nat.lt_ge_cases k (length outer)) as [Lt|Ge].
  - rewrite nth_error_app1 in Hk by exact Lt. destruct (H k n Hk) as (m' & M' & N'). exists m'. split; [|exact N'].
    rewrite !firstn_app. replace (2 * (k + 1) - length path)%nat with 0%nat by lia. replace (k - length outer)%nat with 0%nat by lia.
    cbn [firstn]. rewrite !app_nil_r. exact M'.
  - rewrite nth_error_app2 in Hk by exact Ge. destruct (k - length outer)%nat as [|d] eqn:D; [|destruct d; discriminate].
    cbn in Hk. apply Some_inj in Hk. subst n. assert (k = length outer) as -> by lia. exists m. split; [|reflexivity].
    rewrite !firstn_app. rewrite <- L, !firstn_all. rewrite !Nat.sub_diag. cbn [firstn]. rewrite !app_nil_r, <- E. exact M.
Qed.
Lemma around_message f path scope m : message_at f path scope m -> around f path scope.
Proof. induction 1; [apply around_top|apply around_in; assumption]. Qed.
Lemma around_item f path scope it K : declares f path scope it -> item_kind it = Some K -> around f path scope.
Proof.
  intros D E. destruct D as [path scope m M|path scope m j x M Hx|path scope m j x M Hx|path scope m j x M Hx|j x Hx|path scope e M|path scope e j x M Hx|j s Hs|j s k x Hs Hx];
    try discriminate E.
  - exact (around_message _ _ _ _ M).
  - apply around_in; [exact M|exact (around_message _ _ _ _ M)].
  - apply around_top.
  - destruct M as [j e He|path scope m j e M He]; [apply around_top|apply around_in; [exact M|exact (around_message _ _ _ _ M)]].
  - apply around_top.
Qed.

(** [package_name] of a message, enum, extension or service does not panic and
    is the package its file declares; its full name is the package, the names
    of the messages around it and its own name, joined by dots. *)
Theorem C75_packages X p K i id : search_ok X -> reachable X p -> nth_error (all_ids K p) i = Some id ->
  exists f, nth_error (pool_files p) (id_file id) = Some f /\ package_name p id = Ok (fl_package f) /\ named_in f id.
Proof.
  intros SO R H. destruct (C36_lookup_exact X p K SO R) as (_ & _ & A).
  destruct (A i id H) as [(it & (f & Hf & (scope & D & E) & N) & Ki) _]. exists f. split; [exact Hf|]. split.
  - unfold pool_files in Hf. apply nth_map_some in Hf. destruct Hf as (fi & Hfi & <-). unfold package_name. rewrite Hfi. reflexivity.
  - destruct (around_item _ _ _ _ _ D Ki) as (outer & Es & L & M). exists outer.
    split; [rewrite joined_app, <- Es, N; exact E|]. split; [exact L|exact M].
Qed.
Print Assumptions C75_packages.

(** So a full name starts with the package, followed by a dot. *)
Lemma joined_from pkg names : pkg <> [] -> names <> [] -> exists r, joined_to pkg names = pkg ++ [46] ++ r.
Proof.
  intros P. revert names. apply (rev_ind (fun names => names <> [] -> exists r, joined_to pkg names = pkg ++ [46] ++ r)); [contradiction|].
  intros n l IH _. rewrite joined_app. destruct l as [|a l].
  - exists n. unfold joined_to, dotted. cbn [fold_left]. destruct pkg; [contradiction|reflexivity].
  - destruct IH as (r & E); [discriminate|]. exists (r ++ [46] ++ n). rewrite E. unfold dotted.
    destruct pkg as [|c pkg]; [contradiction|]. cbn [app]. rewrite <- !app_assoc. reflexivity.
Qed.
Theorem C75_prefix X p K i id pkg : search_ok X -> reachable X p -> nth_error (all_ids K p) i = Some id ->
  package_name p id = Ok pkg -> pkg = [] \/ exists r, id_full id = pkg ++ [46] ++ r.
Proof.
  intros SO R H Hp. destruct (C75_packages X p K i id SO R H) as (f & _ & E & outer & F & _).
  rewrite E in Hp. injection Hp as <-. destruct (fl_package f) as [|c pkg] eqn:Ep; [left; reflexivity|right].
  rewrite F. apply joined_from; [discriminate|]. destruct outer; discriminate.
Qed.
Print Assumptions C75_prefix.

(** ** Example: the message [Inner] in [M] in the package [a.b] *)
Example C75_nonvacuous : exists id, reachable demo_externs pool_abcd /\ nth_error (all_ids DkMessage pool_abcd) 1 = Some id /\
  package_name pool_abcd id = Ok (b "a.b") /\ id_full id = b "a.b.M.Inner" /\
  joined_to (b "a.b") ([b "M"] ++ [id_name id]) = b "a.b.M.Inner" /\ id_path id = [4; 0; 3; 0]%Z.
Proof. eexists. split; [exact reach_abcd|]. do 4 (split; [vm_compute; reflexivity|]). vm_compute; reflexivity. Qed.
