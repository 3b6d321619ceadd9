(** Descriptors show what was declared (C55): kinds, packing, presence and
    oneofs of fields; extensions; methods. *)
From Coq Require Import String.
From Verif Require Import Base BaseProofs Value Descr Proto Build VisitProofs EventProofs BuildFrame BuildNames BuildQuiet BuildResolve BuildInv DeclSpec DeclProofs PoolFacts ExampleFiles PoolMembers PoolExts ResolveSpec Prop_Pool Prop_Resolve DefaultSpec Prop_Defaults.
From Coq Require Import List.
Import ListNotations.
Local Open Scope list_scope.
Local Open Scope N_scope.

(** ** What is declared *)

(** the syntax a file declares *)
Definition declared_syntax (f : file) (sy : syntax) : Prop :=
  match sy with
  | Proto2 => fl_syntax f = None \/ fl_syntax f = Some (b "proto2")
  | Proto3 => fl_syntax f = Some (b "proto3")
  end.

(** the kind of a field declared with a scalar type *)
Inductive scalar_shown : ptype -> kind -> Prop :=
| ss_double : scalar_shown TDouble KDouble
| ss_float : scalar_shown TFloat KFloat
| ss_int64 : scalar_shown TInt64 KInt64
| ss_uint64 : scalar_shown TUint64 KUint64
| ss_int32 : scalar_shown TInt32 KInt32
| ss_fixed64 : scalar_shown TFixed64 KFixed64
| ss_fixed32 : scalar_shown TFixed32 KFixed32
| ss_bool : scalar_shown TBool KBool
| ss_string : scalar_shown TString KString
| ss_bytes : scalar_shown TBytes KBytes
| ss_uint32 : scalar_shown TUint32 KUint32
| ss_sfixed32 : scalar_shown TSfixed32 KSfixed32
| ss_sfixed64 : scalar_shown TSfixed64 KSfixed64
| ss_sint32 : scalar_shown TSint32 KSint32
| ss_sint64 : scalar_shown TSint64 KSint64.

Definition message_kind (k : kind) : Prop := (exists i, k = KMessage i) \/ (exists i, k = KGroup i).
Definition group_kind (k : kind) : Prop := exists i, k = KGroup i.
(** kinds whose lists can be packed: all but strings, bytes and messages *)
Definition packable (k : kind) : Prop := k <> KString /\ k <> KBytes /\ ~ message_kind k.

(** [k] is the kind of a field (or extension) declared by [fd], the full name of
    which is [full], in a place where the names [names] are known and the files
    [vis] are visible: without a type name, the declared scalar type; with one,
    the message or enum the name stands for, and a group only if declared as one. *)
Definition kind_shown (p : pool) (names : list (str * def)) (vis : list nat) (full : str) (fd : fproto) (k : kind) : Prop :=
  (fp_type_name fd = [] -> scalar_shown (fp_type fd) k) /\
  (fp_type_name fd <> [] -> full <> [] ->
     exists n d, resolves (fun x => assoc_s x names) (fun x => In x vis) field_type full (fp_type_name fd) n d /\ kind_of p k n d) /\
  (group_kind k -> fp_type fd = TGroup) /\
  (fp_type fd = TGroup -> message_kind k -> group_kind k).

(** packed: asked for by the option, or proto3 and no options at all *)
Definition packed_shown (sy : syntax) (fd : fproto) (k : kind) (packed : bool) : Prop :=
  packed = true <->
  fp_label fd = Repeated /\ packable k /\
  (fp_options fd = Some (Some true) \/ (fp_options fd = None /\ sy = Proto3)).

(** presence: proto3 optional fields, oneof members, singular messages and
    singular fields of proto2 *)
Definition presence_shown (sy : syntax) (fd : fproto) (k : kind) (presence : bool) : Prop :=
  presence = true <->
  fp_optional fd = true \/ fp_oneof fd <> None \/ (fp_label fd <> Repeated /\ (message_kind k \/ sy = Proto2)).

Definition in_oneof (k : nat) (fd : fproto) : bool :=
  match fp_oneof fd with Some z => (z =? Z.of_nat k)%Z | None => false end.
(** the numbers of the fields declared to be in oneof [k] *)
Definition oneof_declared (dm : dproto) (k : nat) : list Z := map fp_number (filter (in_oneof k) (dp_fields dm)).
Definition oneof_shown (dm : dproto) (fd : fproto) (o : option (list N)) : Prop :=
  match fp_oneof fd with
  | None => o = None
  | Some z => exists k ns, z = Z.of_nat k /\ (k < length (dp_oneofs dm))%nat /\ o = Some ns /\ map Z.of_N ns = oneof_declared dm k
  end.

(** the default: there iff declared, and what the declared string denotes *)
Definition default_shown (p : pool) (fd : fproto) (k : kind) (d : option value) : Prop :=
  match fp_default fd with
  | None => d = None
  | Some s => textual k -> exists x, d = Some x /\ denotes (enum_values p) k s x
  end.

(** ** Proofs *)

Lemma syntax_declared f sy : file_syntax f = Some sy -> declared_syntax f sy.
Proof.
  unfold file_syntax. destruct (fl_syntax f) as [s|] eqn:E; [|intros H; inversion H; subst; left; exact E].
  destruct (bytes_eqb s b_proto2) eqn:E2; [apply bytes_eqb_eq in E2; subst s; intros H; inversion H; subst; right; exact E|].
  destruct (bytes_eqb s b_proto3) eqn:E3; [apply bytes_eqb_eq in E3; subst s; intros H; inversion H; subst; exact E|discriminate].
Qed.
Lemma file_shown X p k g : Inv X p -> nth_error (p_files p) k = Some g ->
  exists f, nth_error (pool_files p) k = Some f /\ declared_syntax f (fi_syntax g).
Proof.
  intros I H. assert (nth_error (raws p) k = Some (fi_raw g)) as Hf by (unfold raws; rewrite nth_error_map, H; reflexivity).
  exists (fi_raw g). split; [exact Hf|].
  destruct (iv_files _ _ I _ _ _ (file_event _ _ _ Hf)) as (sy & deps & trans & A & B & _). rewrite H in B. apply Some_inj in B.
  assert (fi_syntax g = sy) as -> by (rewrite B; reflexivity). apply syntax_declared. exact A.
Qed.

Lemma scalar_shown_of ty k : scalar_kind ty = Some k -> scalar_shown ty k.
Proof. destruct ty; cbn; intros H; inversion H; subst; constructor. Qed.
Lemma scalar_not_message ty k : scalar_kind ty = Some k -> ~ message_kind k.
Proof. destruct ty; cbn; intros H; inversion H; subst; intros [[i Q]|[i Q]]; discriminate. Qed.

Lemma kind_shown_of X p names0 trans fd full k : Inv X p -> older names0 (p_names p) ->
  type_spec names0 trans (fp_type fd) (fp_type_name fd) full k -> kind_shown p names0 trans full fd k.
Proof.
  intros I O T. split; [|split; [|split]].
  - intros E. rewrite E in T. apply scalar_shown_of. exact T.
  - intros E Hf. eapply type_resolves; eassumption.
  - intros [i ->]. destruct (fp_type_name fd) as [|c r] eqn:E.
    + cbn in T. destruct (scalar_not_message _ _ T). right. eexists. reflexivity.
    + destruct T as (n & d & _ & [[j [_ Q]]|[e [_ Q]]]); [|discriminate]. destruct (fp_type fd); try discriminate. reflexivity.
  - intros Eg M. destruct (fp_type_name fd) as [|c r] eqn:E.
    + cbn in T. destruct (scalar_not_message _ _ T). exact M.
    + destruct T as (n & d & _ & [[j [_ Q]]|[e [_ Q]]]).
      * rewrite Eg in Q. exists j. exact Q.
      * subst k. destruct M as [[i M]|[i M]]; discriminate.
Qed.

Lemma packable_iff k : is_packable k = true <-> packable k.
Proof.
  unfold packable, message_kind. destruct k; cbn; split; try (intros; discriminate); try (intros _; repeat split; try discriminate; intros [[? Q]|[? Q]]; discriminate);
    intros (A & B & C); exfalso; (apply A; reflexivity) || (apply B; reflexivity) || (apply C; eauto).
Qed.
Lemma message_kind_iff k : is_message_kind k = true <-> message_kind k.
Proof.
  unfold message_kind. destruct k; cbn; split; try (intros; discriminate); eauto;
    intros [[? Q]|[? Q]]; discriminate.
Qed.
Lemma repeated_iff c : card_eqb c Repeated = true <-> c = Repeated.
Proof. destruct c; cbn; split; congruence. Qed.

Lemma packed_shown_of sy fd k : packed_shown sy fd k (packed_of (fp_label fd) (Some k) sy fd).
Proof.
  unfold packed_shown, packed_of. rewrite !andb_true_iff, packable_iff, repeated_iff.
  destruct (fp_options fd) as [[[|]|]|]; [| | |destruct sy]; intuition (congruence || discriminate).
Qed.
Lemma presence_shown_of sy fd k : presence_shown sy fd k (presence_of (fp_label fd) (Some k) sy fd).
Proof.
  unfold presence_shown, presence_of. rewrite !orb_true_iff, andb_true_iff, orb_true_iff, negb_true_iff, message_kind_iff, <- not_true_iff_false, repeated_iff.
  destruct (fp_oneof fd), sy; intuition (congruence || discriminate).
Qed.
Lemma default_shown_of X p fd k d : default_spec X (p_enums p) k (fp_default fd) d -> default_shown p fd k d.
Proof.
  unfold default_spec, default_shown. destruct (fp_default fd) as [s|]; [|auto]. intros D T. destruct D as [v [-> D]]. exists v. split; [reflexivity|].
  destruct k; try contradiction; try (eapply C33_scalar_exact; [split; exact Logic.I|exact D]).
  destruct D as (en & x & En & F & ->). apply find_value_spec in F. destruct F as [pre [post [E1 E2]]].
  eapply dn_enum; [|exact E2]. unfold enum_values. rewrite En. exact E1.
Qed.

(** the members of a oneof, by number *)
Lemma oneof_members (fds : list fproto) (all xs : list field_inner) k :
  Forall2 (fun fd x => f_oneof x = option_map Z.to_nat (fp_oneof fd) /\ f_number x = as_u32 (fp_number fd) /\
                       legal_number (fp_number fd) = true /\ (forall z, fp_oneof fd = Some z -> (0 <= z)%Z)) fds xs ->
  forall pre, all = pre ++ xs ->
  map (fun i => Z.of_N (match nth_error all i with Some f => f_number f | None => 0 end)) (members_from (length pre) k xs)
  = map fp_number (filter (in_oneof k) fds).
Proof.
  induction 1 as [|fd x fds xs H F IH]; intros pre E; [reflexivity|].
  unfold members_from. cbn [mapi concat filter]. fold (members_from (S (length pre)) k xs).
  destruct H as (H1 & H2 & H3 & H4). rewrite map_app, H1.
  specialize (IH (pre ++ [x])). rewrite app_length in IH. cbn [length] in IH. rewrite Nat.add_1_r in IH. rewrite IH by (rewrite <- app_assoc; exact E).
  unfold in_oneof at 2. destruct (fp_oneof fd) as [z|]; cbn [option_map]; [|reflexivity].
  specialize (H4 _ eq_refl). destruct (Nat.eqb_spec (Z.to_nat z) k) as [Ek|Ek]; destruct (Z.eqb_spec z (Z.of_nat k)); try lia; [|reflexivity].
  cbn [map app]. f_equal. rewrite E, nth_error_app2, Nat.sub_diag by lia. cbn. rewrite H2. apply as_u32_legal. exact H3.
Qed.

(** ** Fields *)

(** In every pool the fields of every message are shown as declared: their kind,
    whether they are packed, whether they support presence, and the fields they
    share a oneof with. *)
Theorem C55_fields X p i mi : search_ok X -> reachable X p -> nth_error (p_messages p) i = Some mi ->
  exists f g sy dm scope names0,
    nth_error (pool_files p) (id_file (m_id mi)) = Some f /\ declared_syntax f sy /\
    message_at f (id_path (m_id mi)) scope dm /\
    nth_error (p_files p) (id_file (m_id mi)) = Some g /\ older names0 (p_names p) /\
    Forall2 (fun fd v =>
        kind_shown p names0 (fi_trans g) (dotted (id_full (m_id mi)) (fp_name fd)) fd (fd_kind v) /\
        packed_shown sy fd (fd_kind v) (fd_packed v) /\
        presence_shown sy fd (fd_kind v) (fd_presence v) /\
        oneof_shown dm fd (fd_oneof v) /\
        default_shown p fd (fd_kind v) (fd_default v) /\
        fd_full v = dotted (id_full (m_id mi)) (fp_name fd))
      (dp_fields dm) (msg_fields_index (p_tables p) i).
Proof.
  intros SO R Hm. pose proof (reachable_Inv _ _ SO R) as I.
  destruct (message_decl X p i mi I Hm) as (f & dm & scope & n0 & Hf & Hd & Hfull & _ & _ & O & F & On & _).
  assert (exists g, nth_error (p_files p) (id_file (m_id mi)) = Some g) as [g Hg].
  { unfold pool_files in Hf. rewrite nth_error_map in Hf. destruct (nth_error (p_files p) (id_file (m_id mi))); [eauto|discriminate]. }
  destruct (file_shown X p _ g I Hg) as (f' & Hf' & Sy). rewrite Hf in Hf'. apply Some_inj in Hf'. subst f'.
  exists f, g, (fi_syntax g), dm, scope, n0. repeat (split; [assumption|]).
  pose proof (field_decl _ _ _ _ _ _ _ _ _ F) as FD. unfold msg_fields_index. cbn [p_tables t_messages]. rewrite Hm.
  assert (forall k, (k < length (dp_oneofs dm))%nat -> exists oi, nth_error (m_oneofs mi) k = Some oi /\ o_fields oi = members k (m_fields mi)) as OF.
  { intros k Hk. destruct (nth_error (m_oneofs mi) k) as [oi|] eqn:E; [exists oi; split; [reflexivity|exact (fo_oneofs _ _ _ _ _ _ F _ _ E)]|].
    apply nth_error_None in E. apply (f_equal (@length _)) in On. rewrite !map_length in On. unfold g_oneofs in On.
    rewrite mapi_length in On. lia. }
  assert (forall k, (k < length (dp_oneofs dm))%nat -> map Z.of_N (oneof_numbers mi k) = oneof_declared dm k) as ON.
  { intros k Hk. destruct (OF k Hk) as (oi & Ho & Hof). unfold oneof_numbers. rewrite Ho, map_map, Hof.
    apply (oneof_members (dp_fields dm) (m_fields mi) (m_fields mi) k) with (pre := []); [|reflexivity].
    eapply F2_impl; [|exact FD]. intros fd x _ [j (g' & k' & d & _ & N & _ & _ & Z & ->)].
    destruct N as (? & ? & ? & _ & _ & _ & N4 & _). cbn. repeat split; [exact N4|]. intros z Ez. rewrite Ez in Z. apply Z. }
  clear OF. assert (forall fd v, (exists j, fspec X n0 p dm (EvField (id_path (m_id mi) ++ [2%Z; pos j]) (dotted (id_full (m_id mi)) (fp_name fd)) (id_file (m_id mi)) i j fd) v) ->
     kind_shown p n0 (fi_trans g) (dotted (id_full (m_id mi)) (fp_name fd)) fd (f_kind v) /\
     packed_shown (fi_syntax g) fd (f_kind v) (f_packed v) /\ presence_shown (fi_syntax g) fd (f_kind v) (f_presence v) /\
     oneof_shown dm fd (match f_oneof v with Some o => Some (oneof_numbers mi o) | None => None end) /\ default_shown p fd (f_kind v) (f_default v) /\
     id_full (f_id v) = dotted (id_full (m_id mi)) (fp_name fd)) as SP.
  { intros fd v [j (g' & k & d & G & _ & T & D & Z & ->)]. rewrite Hg in G. apply Some_inj in G. subst g'. cbn [field_of f_kind f_packed f_presence f_oneof f_default f_id].
    split; [eapply kind_shown_of; eassumption|]. split; [apply packed_shown_of|]. split; [apply presence_shown_of|].
    split; [|split; [eapply default_shown_of; exact D|reflexivity]].
    unfold oneof_shown. destruct (fp_oneof fd) as [z|]; [|reflexivity]. cbn [option_map]. destruct Z as [Z1 Z2].
    exists (Z.to_nat z), (oneof_numbers mi (Z.to_nat z)). split; [lia|]. split; [exact Z2|]. split; [reflexivity|]. apply ON. exact Z2. }
  clear - FD SP. revert FD. generalize (m_fields mi). intros l FD. induction FD as [|fd x fds xs H FD IH]; cbn [map]; constructor; [|exact IH].
  exact (SP fd x H).
Qed.
Print Assumptions C55_fields.

(** The oneofs of every message are the declared ones, with the declared members. *)
Theorem C55_oneofs X p i mi : search_ok X -> reachable X p -> nth_error (p_messages p) i = Some mi ->
  exists f dm scope, nth_error (pool_files p) (id_file (m_id mi)) = Some f /\ message_at f (id_path (m_id mi)) scope dm /\
    map (fun o => id_name (o_id o)) (m_oneofs mi) = dp_oneofs dm /\
    forall k, (k < length (m_oneofs mi))%nat -> map Z.of_N (oneof_numbers mi k) = oneof_declared dm k.
Proof.
  intros SO R Hm. pose proof (reachable_Inv _ _ SO R) as I.
  destruct (message_decl X p i mi I Hm) as (f & dm & scope & n0 & Hf & Hd & Hfull & _ & _ & O & F & On & _).
  exists f, dm, scope. repeat (split; [assumption|]). split.
  - rewrite <- (map_map o_id id_name), On, map_map. unfold g_oneofs. rewrite mapi_map.
    generalize 0%nat. generalize (dp_oneofs dm). clear. induction l as [|a l IH]; intros n; cbn [mapi]; [reflexivity|]. f_equal; [|apply IH].
    cbn [mk_oneof o_id]. apply id_name_mk.
  - intros k Hk. pose proof (field_decl _ _ _ _ _ _ _ _ _ F) as FD.
    destruct (nth_error (m_oneofs mi) k) as [oi|] eqn:E; [|apply nth_error_None in E; lia].
    unfold oneof_numbers. rewrite E, map_map, (fo_oneofs _ _ _ _ _ _ F _ _ E).
    apply (oneof_members (dp_fields dm) (m_fields mi) (m_fields mi) k) with (pre := []); [|reflexivity].
    eapply F2_impl; [|exact FD]. intros fd x _ [j (g' & k' & d & _ & N & _ & _ & Z & ->)].
    destruct N as (? & ? & ? & _ & _ & _ & N4 & _). cbn. repeat split; [exact N4|]. intros z Ez. rewrite Ez in Z. apply Z.
Qed.
Print Assumptions C55_oneofs.

(** ** Extensions *)

(** an extension is shown under its full name in brackets *)
Definition in_brackets (s : str) : str := b "[" ++ s ++ b "]".

Lemma message_shown X p names0 trans scope ref i : Inv X p -> older names0 (p_names p) -> scope <> [] ->
  message_spec names0 trans scope ref i ->
  exists n d, resolves (fun x => assoc_s x names0) (fun x => In x trans) message_type scope ref n d /\ kind_of p (KMessage i) n d.
Proof.
  intros I O Hs (n & d & T & K). exists n, d. apply C24_resolution in T; [|exact Hs].
  split; [exact T|]. assert (assoc_s n names0 = Some d) as A.
  { clear - T. destruct T as [n d F|ref' sc d N E F M|a rest sc c d Ne N E C K M F]; apply F. }
  eapply pool_kind; eauto.
Qed.

(** Every extension of every pool is a declared one and shown as declared: the
    message it extends is what its extendee stands for, and has its number in an
    extension range and not reserved. *)
Theorem C55_extensions X p j x : search_ok X -> reachable X p -> nth_error (p_exts p) j = Some x ->
  exists f g sy scope fd names0,
    nth_error (pool_files p) (id_file (x_id x)) = Some f /\ declared_syntax f sy /\
    declares f (id_path (x_id x)) scope (IExt fd) /\ id_full (x_id x) = dotted scope (fp_name fd) /\
    nth_error (p_files p) (id_file (x_id x)) = Some g /\ older names0 (p_names p) /\
    let full := id_full (x_id x) in let v := ext_view (p_tables p) x in
    Z.of_N (fd_number v) = fp_number fd /\ fd_card v = fp_label fd /\
    fd_full v = full /\ fd_name v = in_brackets full /\ fd_json v = in_brackets full /\ fd_oneof v = None /\
    (fd_presence v = true <-> fp_label fd <> Repeated) /\
    kind_shown p names0 (fi_trans g) full fd (fd_kind v) /\
    packed_shown sy fd (fd_kind v) (fd_packed v) /\
    default_shown p fd (fd_kind v) (fd_default v) /\
    (full <> [] -> exists n d,
       resolves (fun y => assoc_s y names0) (fun y => In y (fi_trans g)) message_type full
                (match fp_extendee fd with Some ref => ref | None => [] end) n d /\ kind_of p (KMessage (x_extendee x)) n d) /\
    (* in the message it extends *)
    exists mi mf mscope dm, nth_error (p_messages p) (x_extendee x) = Some mi /\ nth_error (pool_files p) (id_file (m_id mi)) = Some mf /\
      message_at mf (id_path (m_id mi)) mscope dm /\
      (forall lo hi, In (lo, hi) (dp_reserved dm) -> ~ (lo <= fp_number fd < hi)%Z) /\
      (fp_extendee fd <> None -> exists lo hi, In (lo, hi) (dp_ext_ranges dm) /\ (lo <= fp_number fd < hi)%Z).
Proof.
  intros SO R Hm. pose proof (reachable_Inv _ _ SO R) as I.
  assert (nth_error (all_ids DkExtension p) j = Some (x_id x)) as Hid by (cbn; rewrite nth_error_map, Hm; reflexivity).
  destruct (index_event _ _ _ _ _ I Hid) as [e [He Hk]]. destruct e as [| | | | | | | |path full fi parent index fd]; try discriminate.
  cbn in Hk. apply Some_inj in Hk. subst index.
  destruct (iv_exts _ _ I _ _ _ _ _ _ He) as (x' & n0 & Hx' & O & g & ex & k & d & G & M & N & T & D & E).
  rewrite Hm in Hx'. apply Some_inj in Hx'. subst x'.
  destruct (event_ok _ _ He) as [f [Hf [_ Q]]]. cbn in Q. destruct Q as [scope [Dl [Ef W]]]. cbn in Hf.
  destruct (file_shown X p _ g I G) as (f' & Hf' & Sy). rewrite Hf in Hf'. apply Some_inj in Hf'. subst f'.
  exists f, g, (fi_syntax g), scope, fd, n0. subst x. cbn [ext_of x_id mk_id id_file id_path id_full x_extendee].
  repeat (split; [assumption|]).
  destruct N as (id & rf & mp & N1 & N2 & N3 & N4 & N5 & N6).
  cbn [ext_view ext_of fd_number fd_card fd_full fd_name fd_json fd_oneof fd_presence fd_kind fd_packed fd_default
       x_number x_card x_id x_json x_kind x_packed x_default id_full mk_id].
  split; [apply as_u32_legal; exact N4|]. split; [reflexivity|]. split; [reflexivity|]. split; [reflexivity|]. split; [reflexivity|]. split; [reflexivity|].
  split; [rewrite negb_true_iff, <- not_true_iff_false, repeated_iff; reflexivity|].
  split; [eapply kind_shown_of; eassumption|]. split; [apply packed_shown_of|]. split; [eapply default_shown_of; exact D|].
  split.
  - intros Hfu. eapply message_shown; eassumption.
  - unfold mids in N1. apply nth_map_some in N1. destruct N1 as [mi [Hmi <-]].
    destruct (message_decl X p ex mi I Hmi) as (mf & dm & mscope & n1 & Hmf & Hmd & _).
    unfold raws in N2. unfold pool_files in Hmf. rewrite Hmf in N2. apply Some_inj in N2. subst rf.
    rewrite (message_at_found _ _ _ _ Hmd) in N3. apply Some_inj in N3. subst mp.
    exists mi, mf, mscope, dm. repeat (split; [assumption|]). unfold in_range in *. split.
    + intros lo hi Hr Q. specialize (N5 _ Hr). cbn [fst snd] in N5. apply andb_false_iff in N5.
      destruct N5 as [B|B]; [apply Z.leb_gt in B|apply Z.ltb_ge in B]; lia.
    + intros Hx. destruct (fp_extendee fd); [|contradiction]. apply existsb_exists in N6. destruct N6 as [[lo hi] [H1 H2]].
      exists lo, hi. split; [exact H1|]. cbn in H2. apply andb_true_iff in H2. destruct H2 as [A B]. apply Z.leb_le in A. apply Z.ltb_lt in B. lia.
Qed.
Print Assumptions C55_extensions.

(** Pools made by adds that succeeded. *)
Inductive grown (X : externs) : pool -> Prop :=
| gr_empty : grown X empty_pool
| gr_built fuel p fs p' : grown X p -> plain fs -> build_files X fuel p fs = Built p' -> grown X p'.
Lemma grown_reachable X p : grown X p -> reachable X p.
Proof. induction 1; [constructor|eapply re_built; eassumption]. Qed.

Lemma ext_extendee X p j x : Inv X p -> nth_error (p_exts p) j = Some x -> (x_extendee x < length (p_messages p))%nat.
Proof.
  intros I Hm. assert (nth_error (all_ids DkExtension p) j = Some (x_id x)) as Hid by (cbn; rewrite nth_error_map, Hm; reflexivity).
  destruct (index_event _ _ _ _ _ I Hid) as [e [He Hk]]. destruct e as [| | | | | | | |path full fi parent index fd]; try discriminate.
  cbn in Hk. apply Some_inj in Hk. subst index.
  destruct (iv_exts _ _ I _ _ _ _ _ _ He) as (x' & n0 & Hx' & O & g & ex & k & d & G & M & N & T & D & E).
  rewrite Hm in Hx'. apply Some_inj in Hx'. subst x'. subst x. cbn. destruct N as (id & rf & mp & N1 & _).
  unfold mids in N1. apply nth_map_some in N1. destruct N1 as [mi [Hmi _]]. apply nth_error_Some. congruence.
Qed.

Lemma built_exts X fuel p fs v : build_deduped X fuel p fs = Ok v -> v_errs v = [] -> Inv X p -> search_ok X -> unknown_files p fs ->
  exists k p1, mexts p1 = mexts p ++ repeat [] k /\ mids (v_pool v) = mids p1 /\ Cextof (offsets_of p) p1 (v_pool v).
Proof.
  intros H Hq I SO Hu. pose proof (Inv_base _ _ I) as B. set (o := offsets_of p). set (evs := visit o fs).
  unfold build_deduped in H. fold o in H. fold evs in H.
  apply rbind_ok in H. destruct H as [[p1 e1] [H1 H]].
  assert (e1 = []) as -> by (cbn [v_errs] in H; destruct e1; [reflexivity|inversion H; subst; discriminate]).
  cbn [v_errs] in H. apply rbind_ok in H. destruct H as [[p2 e2] [H2 H]].
  assert (e2 = []) as -> by (cbn [v_errs] in H; destruct e2; [reflexivity|inversion H; subst; discriminate]).
  cbn [v_errs] in H. assert (v = V p2 []) as ->.
  { apply rbind_ok in H. destruct H as [b [_ H]]. destruct b; [apply Ok_inj in H; congruence|]. exfalso. exact (noisy_push _ _ _ _ H Hq). }
  assert (mx p p1) as [k K].
  { revert H1. generalize (eq_refl (v_pool (V p1 []))). intros _ H1. change p1 with (v_pool (V p1 [])).
    refine (fold_res_inv (fun s => mx p (v_pool s)) _ _ _ _ _ _ H1); [|apply mx_refl].
    intros e s s' He Hs E. eapply mx_trans; [exact Hs|eapply names_mx; exact E]. }
  exists k, p1. split; [exact K|]. cbn [v_pool].
  pose proof (names_phase _ _ _ H1) as HN. fold o in HN. fold evs in HN.
  destruct (visit_cc o fs) as [Hcl Hcm].
  assert (RI X o p1 evs evs p2) as HR.
  { eapply resolve_phase; [exact SO|apply visit_scoped| |exact HN|exact Hcl|exact Hcm|apply sizes_of|exact H2].
    apply visit_located. intros q f Hk. destruct (ni_files _ _ _ _ _ (ni_nf _ _ _ _ HN) [] (of_file o + q)%nat f) as [sy [_ Hf]].
    { apply visit_files_all. exact Hk. }
    unfold raws. rewrite nth_error_map, Hf. reflexivity. }
  split; [exact (ri_mids _ _ _ _ _ _ HR)|exact (ri_extof _ _ _ _ _ _ HR)].
Qed.

Lemma seq_split a n m : seq a (n + m) = seq a n ++ seq (a + n) m.
Proof. apply seq_app. Qed.
Lemma ext_ids_split n xs i : (n <= length xs)%nat -> ext_ids 0 xs i = ext_ids 0 (firstn n xs) i ++ ext_ids n xs i.
Proof.
  intros H. unfold ext_ids. rewrite Nat.sub_0_r, (firstn_length_le xs H), Nat.sub_0_r.
  replace (length xs) with (n + (length xs - n))%nat at 1 by lia. rewrite seq_split, filter_app. f_equal.
  apply filter_ext_in'. intros a Ha. apply in_seq in Ha. rewrite nth_firstn by lia. reflexivity.
Qed.
Lemma ext_ids_none n xs i : (forall x, In x xs -> x_extendee x <> i) -> ext_ids n xs i = [].
Proof.
  intros H. unfold ext_ids. induction (seq n (length xs - n)) as [|a l IH]; [reflexivity|]. cbn.
  destruct (nth_error xs a) as [x|] eqn:E; [|exact IH]. apply nth_error_In in E. specialize (H _ E).
  destruct (Nat.eqb_spec (x_extendee x) i); [contradiction|exact IH].
Qed.

Lemma grown_lists X p : search_ok X -> grown X p -> forall i mi, nth_error (p_messages p) i = Some mi -> m_exts mi = ext_ids 0 (p_exts p) i.
Proof.
  intros SO H. induction H as [|fuel p fs p' G IH Hp H]; [intros [|i] mi E; discriminate|].
  pose proof (reachable_Inv _ _ SO (grown_reachable _ _ G)) as I.
  pose proof (reachable_Inv _ _ SO (grown_reachable _ _ (gr_built X fuel p fs p' G Hp H))) as I'.
  apply build_built in H. destruct H as [[_ ->]|[_ [v [H [Hq ->]]]]]; [exact IH|].
  pose proof (build_frame _ _ _ _ _ (ba_fnames _ (Inv_base _ _ I)) (dedup_unknown _ _) H) as Fr.
  destruct (built_exts X fuel p _ v H Hq I SO (dedup_unknown _ _)) as (k & p1 & K & Em & C).
  pose proof (fr_exts _ _ _ _ Fr) as Fe. cbn [of_ext offsets_of] in Fe.
  assert (length (p_exts p) <= length (p_exts (v_pool v)))%nat as Le.
  { rewrite <- Fe at 1. rewrite firstn_length. lia. }
  intros i mi Hi.
  destruct (nth_error (p_messages p1) i) as [m1|] eqn:E1.
  - destruct (C _ _ E1) as (mi' & A & B). rewrite Hi in A. apply Some_inj in A. subst mi'. rewrite B. cbn [of_ext offsets_of].
    rewrite (ext_ids_split (length (p_exts p)) (p_exts (v_pool v)) i Le), Fe. f_equal.
    assert (nth_error (mexts p1) i = Some (m_exts m1)) as Q by (unfold mexts; rewrite nth_error_map, E1; reflexivity).
    rewrite K in Q. destruct (Nat.lt_ge_cases i (length (mexts p))) as [Hl|Hl].
    + rewrite nth_app_l in Q by exact Hl. unfold mexts in Q. apply nth_map_some in Q. destruct Q as [m0 [Q <-]]. apply IH. exact Q.
    + rewrite nth_error_app2 in Q by exact Hl. apply nth_error_In in Q. apply repeat_spec in Q. rewrite Q. symmetry. apply ext_ids_none.
      intros x Hx Ee. apply In_nth_error in Hx. destruct Hx as [j Hj]. pose proof (ext_extendee X p j x I Hj) as L.
      unfold mexts in Hl. rewrite map_length in Hl. lia.
  - exfalso. apply (f_equal (@length _)) in Em. unfold mids in Em. rewrite !map_length in Em. apply nth_error_None in E1.
    assert (i < length (p_messages (v_pool v)))%nat by (apply nth_error_Some; congruence). lia.
Qed.

Lemma ids_filter xs i : forall pre, filter_some (map (nth_error (pre ++ xs))
    (filter (fun j => match nth_error (pre ++ xs) j with Some x => (x_extendee x =? i)%nat | None => false end) (seq (length pre) (length xs))))
  = filter (fun x => (x_extendee x =? i)%nat) xs.
Proof.
  induction xs as [|x xs IH]; intros pre; [reflexivity|]. cbn [length seq filter].
  rewrite nth_error_app2, Nat.sub_diag by lia. cbn [nth_error].
  specialize (IH (pre ++ [x])). rewrite app_length, <- app_assoc in IH. cbn [length app] in IH. rewrite Nat.add_1_r in IH.
  destruct (x_extendee x =? i)%nat; [|exact IH].
  cbn [map filter_some]. rewrite nth_error_app2, Nat.sub_diag by lia. cbn [nth_error]. f_equal. exact IH.
Qed.

(** As long as no add has failed, every message lists exactly the extensions that
    extend it, in the order in which they were added.  (A failed add can damage
    these lists: C22.) *)
Theorem C55_extension_lists X p i : search_ok X -> grown X p -> (i < length (p_messages p))%nat ->
  msg_exts (p_tables p) i = map (ext_view (p_tables p)) (filter (fun x => (x_extendee x =? i)%nat) (p_exts p)).
Proof.
  intros SO G Hi. unfold msg_exts. cbn [p_tables t_messages t_exts].
  destruct (nth_error (p_messages p) i) as [mi|] eqn:E; [|apply nth_error_None in E; lia].
  rewrite (grown_lists X p SO G i mi E). f_equal. unfold ext_ids. rewrite Nat.sub_0_r. exact (ids_filter (p_exts p) i []).
Qed.
Print Assumptions C55_extension_lists.

(** ** Methods *)

(** Every service of every pool is a declared one; its methods are the declared
    ones, and their input and output are what the declared names stand for. *)
Theorem C55_methods X p i si : search_ok X -> reachable X p -> nth_error (p_services p) i = Some si ->
  exists f g j s names0,
    nth_error (pool_files p) (id_file (s_id si)) = Some f /\ id_path (s_id si) = [6%Z; pos j] /\ nth_error (fl_services f) j = Some s /\
    id_full (s_id si) = dotted (fl_package f) (sp_name s) /\
    nth_error (p_files p) (id_file (s_id si)) = Some g /\ older names0 (p_names p) /\
    Forall2 (fun m v => let full := dotted (id_full (s_id si)) (mp_name m) in
        id_name (me_id v) = mp_name m /\ id_full (me_id v) = full /\
        (full <> [] ->
         (exists n d, resolves (fun x => assoc_s x names0) (fun x => In x (fi_trans g)) message_type full (mp_input m) n d /\
                      kind_of p (KMessage (me_input v)) n d) /\
         (exists n d, resolves (fun x => assoc_s x names0) (fun x => In x (fi_trans g)) message_type full (mp_output m) n d /\
                      kind_of p (KMessage (me_output v)) n d)))
      (sp_methods s) (s_methods si).
Proof.
  intros SO R Hm. pose proof (reachable_Inv _ _ SO R) as I.
  assert (nth_error (all_ids DkService p) i = Some (s_id si)) as Hid by (cbn; rewrite nth_error_map, Hm; reflexivity).
  destruct (index_event _ _ _ _ _ I Hid) as [e [He Hk]]. destruct e as [| | | |path full fi index s| | | |]; try discriminate.
  cbn in Hk. apply Some_inj in Hk. subst index.
  destruct (iv_svcs _ _ I _ _ _ _ _ He) as (si' & n0 & A & B & O & F). rewrite Hm in A. apply Some_inj in A. subst si'.
  destruct (event_ok _ _ He) as [f [Hf [_ Q]]]. cbn in Q. destruct Q as [scope [Dl [Ef W]]]. cbn in Hf.
  destruct (visit_cc off0 (raws p)) as [_ Cm]. destruct (Cm _ He) as [Ck _]. cbn [heads] in Ck.
  pose proof (Ck _ _ _ (or_introl eq_refl)) as K0. fold (pool_events p) in K0. rewrite K0 in F.
  assert (exists g, nth_error (p_files p) fi = Some g) as [g Hg].
  { unfold pool_files in Hf. rewrite nth_error_map in Hf. destruct (nth_error (p_files p) fi); [eauto|discriminate]. }
  inversion Dl as [| | | | | | |j s' Hj|]; subst. exists f, g, j, s, n0. rewrite B. cbn [mk_id id_file id_path id_full].
  repeat (split; [assumption || reflexivity|]).
  unfold g_methods in F. revert F. generalize 0%nat. generalize (s_methods si). generalize (sp_methods s).
  induction l as [|m l IH]; intros l' n F; cbn [mapi] in F; inversion F as [|? v ? ? H1 H2]; subst; constructor; [|eapply IH; eassumption].
  destruct H1 as (g' & inp & out & G & M1 & M2 & ->). rewrite Hg in G. apply Some_inj in G. subst g'.
  cbv zeta. cbn [me_id me_input me_output]. split; [apply id_name_mk|]. split; [reflexivity|].
  intros Hfu. split; eapply message_shown; eassumption.
Qed.
Print Assumptions C55_methods.


(** ** The hypotheses are met *)

Definition dfield (name : string) (num : Z) (l : card) (ty : ptype) (opts : option (option bool)) (oneof : option Z) : fproto :=
  FP (b name) None num l ty [] None oneof None opts false.
(** proto3: a packed list, a list with an option other than packed, a list with
    packed = false, two members of a oneof, a plain field, a group *)
Definition file_decl : file :=
  File (b "decl.proto") (b "d") [] [] []
    [DP (b "M")
        [dfield "a" 1 Repeated TSint32 None None; dfield "c" 2 Repeated TInt32 (Some None) None;
         dfield "e" 3 Repeated TBool (Some (Some false)) None; dfield "f" 4 Optional TString None (Some 0%Z);
         dfield "g" 6 Optional TBytes None (Some 0%Z); dfield "h" 5 Optional TFixed64 None None;
         FP (b "k") None 7 Optional TGroup (b "M") None None None None false]
        [] [] [] [(100, 200)%Z] [b "choice"] false []]
    [] [SP (b "S") [MP (b "Do") (b "M") (b ".d.M")]]
    [FP (b "x") (Some (b "M")) 100 Optional TInt32 [] None None None None false;
     FP (b "y") (Some (b "M")) 100 Optional TString [] None None None None false]
    (Some (b "proto3")).
Definition pool_decl : pool := built (build_files demo_externs 10 empty_pool [file_decl]).
Lemma built_decl : build_files demo_externs 10 empty_pool [file_decl] = Built pool_decl.
Proof. vm_compute. reflexivity. Qed.
Lemma grown_decl : grown demo_externs pool_decl.
Proof. apply (gr_built _ 10 empty_pool [file_decl] _ (gr_empty _)); [repeat constructor; discriminate|exact built_decl]. Qed.

Example C55_nonvacuous :
  grown demo_externs pool_decl /\ reachable demo_externs pool_decl /\ search_ok demo_externs /\
  map (fun v => (fd_number v, fd_kind v, fd_packed v, fd_presence v, fd_oneof v)) (msg_fields_index (p_tables pool_decl) 0)
  = [(1, KSint32, true, false, None); (2, KInt32, false, false, None); (3, KBool, false, false, None);
     (4, KString, false, true, Some [4; 6]); (6, KBytes, false, true, Some [4; 6]); (5, KFixed64, false, false, None);
     (7, KGroup 0, false, true, None)] /\
  map (fun v => (fd_number v, fd_full v)) (msg_exts (p_tables pool_decl) 0) = [(100, b "d.x"); (100, b "d.y")] /\
  map (fun s => map (fun m => (me_input m, me_output m)) (s_methods s)) (p_services pool_decl) = [[(0, 0)]]%nat.
Proof.
  split; [exact grown_decl|]. split; [exact (grown_reachable _ _ grown_decl)|]. split; [exact demo_search|].
  split; [vm_compute; reflexivity|]. split; vm_compute; reflexivity.
Qed.

(** In proto3, lists of numbers are packed unless the option packed is false.
    In this crate a list with any option, but not packed, is not packed. *)
Theorem C55_packed_default_refuted :
  exists p i fd v, grown demo_externs p /\
    In fd (flat_map dp_fields (flat_map fl_messages (pool_files p))) /\ In v (msg_fields_index (p_tables p) i) /\ fd_name v = fp_name fd /\
    Forall (fun f => declared_syntax f Proto3) (pool_files p) /\
    fp_label fd = Repeated /\ packable (fd_kind v) /\ fp_options fd <> Some (Some false) /\ fd_packed v = false.
Proof.
  assert (pool_files pool_decl = [file_decl]) as Ef by (vm_compute; reflexivity).
  destruct (nth_error (msg_fields_index (p_tables pool_decl) 0) 1) as [v|] eqn:E; [|vm_compute in E; discriminate].
  exists pool_decl, 0%nat, (dfield "c" 2 Repeated TInt32 (Some None) None), v. rewrite Ef.
  split; [exact grown_decl|]. split; [right; left; reflexivity|]. split; [eapply nth_error_In; exact E|].
  vm_compute in E. apply Some_inj in E. subst v. cbn [fd_name fd_kind fd_packed].
  split; [reflexivity|]. split; [repeat constructor|]. split; [reflexivity|]. split; [apply packable_iff; reflexivity|].
  split; [discriminate|reflexivity].
Qed.
Print Assumptions C55_packed_default_refuted.

(** Two extensions of a message can have the same number; only the first is found
    by number. *)
Theorem C55_extension_number_refuted :
  exists p i x y, grown demo_externs p /\ In x (p_exts p) /\ In y (p_exts p) /\ x <> y /\
    x_extendee x = i /\ x_extendee y = i /\ x_number x = x_number y /\
    get_ext (p_tables p) i (x_number y) = Some (ext_view (p_tables p) x).
Proof.
  destruct (nth_error (p_exts pool_decl) 0) as [x|] eqn:Ex; [|vm_compute in Ex; discriminate].
  destruct (nth_error (p_exts pool_decl) 1) as [y|] eqn:Ey; [|vm_compute in Ey; discriminate].
  exists pool_decl, 0%nat, x, y. split; [exact grown_decl|].
  split; [eapply nth_error_In; exact Ex|]. split; [eapply nth_error_In; exact Ey|].
  vm_compute in Ex, Ey. apply Some_inj in Ex. apply Some_inj in Ey. subst x y. split; [discriminate|].
  split; [reflexivity|]. split; [reflexivity|]. split; [reflexivity|]. vm_compute. reflexivity.
Qed.
Print Assumptions C55_extension_number_refuted.
