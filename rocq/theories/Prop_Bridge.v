(** Pools built from files meet what the theorems about dynamic messages ask of
    descriptors (C57). *)
From Coq Require Import String.
From Verif Require Import Base BaseProofs Wire WireProofs Unknown Value Descr Fields Codec DescrOk DescrProofs Proto Build
  RoundSpec History DepthProofs EventProofs BuildResolve BuildInv DeclSpec DeclProofs PoolFacts ExampleFiles Prop_Decode Prop_Round Prop_History Prop_Declared SaneSpec BridgeProofs.
From Coq Require Import List.
Import ListNotations.
Local Open Scope list_scope.
Local Open Scope N_scope.

(** In a pool made by successful adds of any file descriptors, the tables agree
    with each other: lookups by number, name and JSON name lead to the field
    that has it; kinds lead to messages and enums that exist; numbers are legal;
    oneofs and their members point at each other; defaults have the type of the
    field ([tables_ok], DescrOk.v). *)
Theorem C57_tables_consistent X p :
  search_ok X -> floats_ok X -> grown X p -> Forall typed_file (pool_files p) -> tables_ok (p_tables p).
Proof. intros SO FL G TY. exact (pool_tables_ok X p SO FL G TY). Qed.
Print Assumptions C57_tables_consistent.

(** If the files also have what protoc guarantees, the pool has all the
    theorems about dynamic messages ask for. *)
Theorem C57_pools_are_wf X p :
  search_ok X -> floats_ok X -> grown X p -> Forall typed_file (pool_files p) -> Forall protoc_file (pool_files p) ->
  wf (p_tables p).
Proof. intros SO FL G TY PF. split; [exact (pool_tables_ok X p SO FL G TY)|exact (pool_schema_ok X p SO FL G TY PF)]. Qed.
Print Assumptions C57_pools_are_wf.

(** So, from files to bytes: in such a pool, decoding any bytes for any message
    of the pool returns a message or an error; *)
Theorem C57_decode X p d b :
  search_ok X -> floats_ok X -> grown X p -> Forall typed_file (pool_files p) -> Forall protoc_file (pool_files p) ->
  (d < length (p_messages p))%nat -> bytes_ok b ->
  (exists m, msg_decode (p_tables p) d b = Ok m /\ dm_desc m = d) \/ (exists e, msg_decode (p_tables p) d b = Err e).
Proof.
  intros SO FL G TY PF Hd Hb. pose proof (C04_decode_total (p_tables p) d b (C57_pools_are_wf X p SO FL G TY PF) Hd Hb) as H.
  destruct (msg_decode (p_tables p) d b) as [m|e| |]; [|eauto|destruct H|destruct H]. left. exists m. split; [reflexivity|apply H].
Qed.
Print Assumptions C57_decode.

(** and a message made by any sequence of valid calls, not nested deeper than 100,
    is encoded and decoded to a message that cannot be told apart from it. *)
Theorem C57_round_trip X p d m :
  search_ok X -> floats_ok X -> grown X p -> Forall typed_file (pool_files p) -> Forall protoc_file (pool_files p) ->
  (d < length (p_messages p))%nat -> history (p_tables p) (vok (p_tables p)) (wok (p_tables p)) d m ->
  zeros_kept_msg (p_tables p) m = true -> (msg_depth m <= 100)%nat ->
  exists b, enc_msg (p_tables p) m = Ok b /\
    (N.of_nat (length b) < 2 ^ 64 -> exists m', msg_decode (p_tables p) (dm_desc m) b = Ok m' /\ same_msg (p_tables p) m m').
Proof.
  intros SO FL G TY PF Hd Hh Hz Hn. pose proof (C57_pools_are_wf X p SO FL G TY PF) as W.
  apply C02_round_trip; [exact W| |exact Hz|exact Hn]. exact (C11_nested _ d m W Hd Hh).
Qed.
Print Assumptions C57_round_trip.

(** ** The hypotheses are met *)

(** checks of the items of a pool, one by one *)
Definition stringb (s : str) : bool := bytes_okb s && utf8_valid s.
Definition defaultb (d : option str) : bool := match d with Some s => stringb s | None => true end.
Definition typedb (it : item) : bool :=
  match it with
  | IField fd | IExt fd => defaultb (fp_default fd)
  | IValue v => i32_ok (snd v)
  | _ => true
  end.
Definition key_typeb (t : ptype) : bool :=
  match t with
  | TInt32 | TInt64 | TUint32 | TUint64 | TSint32 | TSint64 | TFixed32 | TFixed64 | TSfixed32 | TSfixed64 | TBool | TString => true
  | _ => false
  end.
Definition protocb (it : item) : bool :=
  match it with
  | IField fd =>
      (negb (card_eqb (fp_label fd) Repeated) || (match fp_oneof fd with None => true | _ => false end && negb (fp_optional fd)))
      && match fp_extendee fd with None => true | _ => false end
  | IExt fd => match fp_extendee fd with Some _ => true | _ => false end
  | IMessage m =>
      negb (dp_map_entry m)
      || (existsb (fun k => (fp_number k =? 1)%Z && negb (card_eqb (fp_label k) Repeated) && match fp_type_name k with [] => true | _ => false end && key_typeb (fp_type k)) (dp_fields m)
          && existsb (fun v => (fp_number v =? 2)%Z && negb (card_eqb (fp_label v) Repeated)) (dp_fields m))
  | _ => true
  end.
Definition eventsb (q : item -> bool) (p : pool) : bool :=
  forallb (fun e => match ev_item e with Some it => q it | None => true end) (pool_events p).

Lemma eventsb_item q p k f path scope it : eventsb q p = true -> nth_error (pool_files p) k = Some f -> declares f path scope it -> q it = true.
Proof.
  intros H Hf D. destruct (declared_event p k f path scope it Hf D) as (e & He & _ & _ & _ & Ei).
  unfold eventsb in H. rewrite forallb_forall in H. specialize (H _ He). rewrite Ei in H. exact H.
Qed.
Lemma defaultb_ok d : defaultb d = true -> a_default d.
Proof. destruct d; [|intros _; exact I]. cbn. unfold stringb. intros H. apply andb_true_iff in H. exact H. Qed.
Lemma typedb_ok p : eventsb typedb p = true -> Forall typed_file (pool_files p).
Proof.
  intros H. apply Forall_forall. intros f Hf. apply In_nth_error in Hf. destruct Hf as [k Hf]. constructor; intros path scope x D.
  - apply defaultb_ok. exact (eventsb_item _ _ _ _ _ _ _ H Hf D).
  - apply defaultb_ok. exact (eventsb_item _ _ _ _ _ _ _ H Hf D).
  - pose proof (eventsb_item _ _ _ _ _ _ _ H Hf D) as Q. cbn in Q. unfold i32_ok in Q. lia.
Qed.
Lemma not_repeatedb c : negb (card_eqb c Repeated) = true -> c <> Repeated.
Proof. destruct c; cbn; congruence. Qed.
Lemma key_typeb_ok t : key_typeb t = true -> key_type t.
Proof. unfold key_type. destruct t; cbn; intros H; try discriminate; tauto. Qed.
Lemma protocb_ok p : eventsb protocb p = true -> Forall protoc_file (pool_files p).
Proof.
  intros H. apply Forall_forall. intros f Hf. apply In_nth_error in Hf. destruct Hf as [k Hf]. constructor; intros path scope x D;
    pose proof (eventsb_item _ _ _ _ _ _ _ H Hf D) as Q; cbn [protocb] in Q.
  - intros R. rewrite R in Q. cbn [card_eqb negb orb] in Q. apply andb_true_iff in Q. destruct Q as [Q _]. apply andb_true_iff in Q.
    destruct Q as [A B]. apply negb_true_iff in B. destruct (fp_oneof x); [discriminate|]. auto.
  - apply andb_true_iff in Q. destruct Q as [_ Q]. destruct (fp_extendee x); [discriminate|reflexivity].
  - destruct (fp_extendee x); [discriminate|discriminate].
  - intros E. rewrite E in Q. cbn [negb orb] in Q. apply andb_true_iff in Q. destruct Q as [A B].
    apply existsb_exists in A. destruct A as (kf & Hk & A). apply existsb_exists in B. destruct B as (vf & Hv & B).
    rewrite !andb_true_iff in A. destruct A as [[[A1 A2] A3] A4]. rewrite andb_true_iff in B. destruct B as [B1 B2].
    exists kf, vf. split; [exact Hk|]. split; [exact Hv|]. split; [apply Z.eqb_eq; exact A1|]. split; [apply not_repeatedb; exact A2|].
    split; [destruct (fp_type_name kf); [reflexivity|discriminate]|]. split; [apply key_typeb_ok; exact A4|].
    split; [apply Z.eqb_eq; exact B1|apply not_repeatedb; exact B2].
Qed.

(** a map from strings to enums, a oneof, defaults of several types and an
    extension *)
Definition file_map : file :=
  File (b "map.proto") (b "q") [] [] []
    [DP (b "M")
        [fld "m" 1 Repeated TMessage "M.MEntry";
         FP (b "s") None 2 Optional TString [] (Some (b "dflt")) (Some 0%Z) None None false;
         FP (b "y") None 3 Optional TBytes [] (Some (b "\001\xff")) (Some 0%Z) None None false;
         FP (b "i") None 4 Optional TSint32 [] (Some (b "-7")) None None None false;
         FP (b "e") None 5 Optional TEnum (b "E") (Some (b "NEG")) None None None false]
        [] [DP (b "MEntry") [fld "key" 1 Optional TString ""; fld "value" 2 Optional TEnum "E"] [] [] [] [] [] true []] []
        [(100, 200)%Z] [b "choice"] false []]
    [EP (b "E") [(b "ZERO", 0%Z); (b "NEG", (-5)%Z)] [] None] []
    [FP (b "x") (Some (b "M")) 100 Repeated TInt32 [] None None None (Some (Some true)) false]
    None.
Definition pool_map : pool := built (build_files demo_externs 10 empty_pool [file_map]).
Lemma built_map : build_files demo_externs 10 empty_pool [file_map] = Built pool_map.
Proof. vm_compute. reflexivity. Qed.
Lemma grown_map : grown demo_externs pool_map.
Proof. apply (gr_built _ 10 empty_pool [file_map] _ (gr_empty _)); [repeat constructor; discriminate|exact built_map]. Qed.
Lemma demo_floats : floats_ok demo_externs.
Proof. split; discriminate. Qed.

Example C57_nonvacuous :
  grown demo_externs pool_map /\ search_ok demo_externs /\ floats_ok demo_externs /\
  Forall typed_file (pool_files pool_map) /\ Forall protoc_file (pool_files pool_map) /\ wf (p_tables pool_map) /\
  map (fun v => (fd_number v, fd_is_map v, fd_default v)) (msg_fields (p_tables pool_map) 0)
  = [(1, true, None); (2, false, Some (VString (b "dflt"))); (3, false, Some (VBytes [1; 255]));
     (4, false, Some (VI32 (-7))); (5, false, Some (VEnum (-5)))] /\
  msg_decode (p_tables pool_map) 0 [10; 5; 10; 1; 65; 16; 0; 162; 6; 2; 3; 4]
  = Ok (DM 0 [(1, SVal (VMap [(MKString [65], VEnum 0)])); (100, SVal (VList [VI32 3; VI32 4]))]).
Proof.
  assert (Forall typed_file (pool_files pool_map)) as TY by (apply typedb_ok; vm_compute; reflexivity).
  assert (Forall protoc_file (pool_files pool_map)) as PF by (apply protocb_ok; vm_compute; reflexivity).
  split; [exact grown_map|]. split; [exact demo_search|]. split; [exact demo_floats|]. split; [exact TY|]. split; [exact PF|].
  split; [exact (C57_pools_are_wf _ _ demo_search demo_floats grown_map TY PF)|]. split; vm_compute; reflexivity.
Qed.

(** What protoc guarantees is not checked when files are added: a map entry
    without fields is accepted, and decoding then panics. *)
Definition file_bad_entry : file :=
  File (b "bad.proto") (b "q") [] [] []
    [DP (b "M") [fld "m" 1 Repeated TMessage "M.MEntry"]
        [] [DP (b "MEntry") [] [] [] [] [] [] true []] [] [] [] false []] [] [] [] None.
Theorem C57_map_entry_unchecked_refuted :
  exists p, build_files demo_externs 10 empty_pool [file_bad_entry] = Built p /\ Forall typed_file (pool_files p) /\
    msg_decode (p_tables p) 0 [10; 0] = Panic.
Proof.
  exists (built (build_files demo_externs 10 empty_pool [file_bad_entry])).
  split; [vm_compute; reflexivity|]. split; [apply typedb_ok; vm_compute; reflexivity|vm_compute; reflexivity].
Qed.
Print Assumptions C57_map_entry_unchecked_refuted.
