(** The walk over a file in closed form: which calls a visitor gets, with which
    paths, full names and indices. *)
From Verif Require Import Base Value Descr Proto.

Fixpoint mapi {A B} (i : nat) (g : nat -> A -> B) (l : list A) : list B :=
  match l with
  | [] => []
  | a :: r => g i a :: mapi (S i) g r
  end.

Lemma mapi_length {A B} (g : nat -> A -> B) l : forall i, length (mapi i g l) = length l.
Proof. induction l; intros; cbn; auto. Qed.
Lemma mapi_nth {A B} (g : nat -> A -> B) l : forall i n,
  nth_error (mapi i g l) n = option_map (g (i + n)%nat) (nth_error l n).
Proof.
  induction l as [|a l IH]; intros i n; destruct n; cbn; auto.
  - f_equal. f_equal. lia.
  - rewrite IH. now replace (S i + n)%nat with (i + S n)%nat by lia.
Qed.
Lemma mapi_in {A B} (g : nat -> A -> B) l i b :
  In b (mapi i g l) -> exists n a, nth_error l n = Some a /\ b = g (i + n)%nat a.
Proof.
  intros H. apply In_nth_error in H as [n H]. rewrite mapi_nth in H.
  destruct (nth_error l n) as [a|] eqn:E; cbn in H; [|discriminate].
  exists n, a. split; [exact E|]. congruence.
Qed.
Lemma mapi_map {A B C} (g : nat -> A -> B) (h : B -> C) l : forall i,
  map h (mapi i g l) = mapi i (fun n a => h (g n a)) l.
Proof. induction l; intros; cbn; f_equal; auto. Qed.
Lemma mapi_ext {A B} (g h : nat -> A -> B) l : forall i,
  (forall n a, g n a = h n a) -> mapi i g l = mapi i h l.
Proof. induction l; intros; cbn; f_equal; auto. Qed.

(** induction over nested messages *)
Section DprotoInd.
  Context (P : dproto -> Prop)
          (H : forall n f x ns es r o me rv, Forall P ns -> P (DP n f x ns es r o me rv)).
  Fixpoint dproto_ind' (d : dproto) : P d :=
    match d with
    | DP n f x ns es r o me rv =>
        H n f x ns es r o me rv
          ((fix go (l : list dproto) : Forall P l :=
              match l with
              | [] => Forall_nil P
              | a :: t => Forall_cons a (dproto_ind' a) (go t)
              end) ns)
    end.
End DprotoInd.

(** ** The calls in closed form *)

(** messages, enums and extensions in a message, itself included *)
Fixpoint msize (m : dproto) : nat :=
  let 'DP _ _ _ ns _ _ _ _ _ := m in S (list_sum (map msize ns)).
Fixpoint esize (m : dproto) : nat :=
  let 'DP _ _ _ ns es _ _ _ _ := m in (list_sum (map esize ns) + length es)%nat.
Fixpoint xsize (m : dproto) : nat :=
  let 'DP _ _ xs ns _ _ _ _ _ := m in (list_sum (map xsize ns) + length xs)%nat.

Definition zn (i : nat) : Z := Z.of_nat i.

Definition g_fields (file idx : nat) (path : list Z) (full : str) (fs : list fproto) : list event :=
  mapi 0 (fun j f => EvField (path ++ [2%Z; zn j]) (join_scope full (fp_name f)) file idx j f) fs.
Definition g_oneofs (file idx : nat) (path : list Z) (full : str) (os : list str) : list event :=
  mapi 0 (fun j o => EvOneof (path ++ [8%Z; zn j]) (join_scope full o) file idx j o) os.
Definition g_values (file idx : nat) (path : list Z) (scope : str) (vs : list (str * Z)) : list event :=
  mapi 0 (fun j v => EvEnumValue (path ++ [2%Z; zn j]) (join_scope scope (fst v)) file idx j v) vs.
Definition g_methods (file idx : nat) (path : list Z) (full : str) (ms : list mproto) : list event :=
  mapi 0 (fun j m => EvMethod (path ++ [2%Z; zn j]) (join_scope full (mp_name m)) file idx j m) ms.

Definition g_enum (file : nat) (parent : option nat) (path : list Z) (scope : str) (oe : nat)
    (e : eproto) : list event :=
  EvEnum path (join_scope scope (ep_name e)) file parent oe e
  :: g_values file oe path scope (ep_values e).
(** enums number [j], [j+1], .. under [path ++ [tag]] *)
Definition g_enums (file : nat) (parent : option nat) (path : list Z) (tag : Z) (scope : str)
    (j oe : nat) (es : list eproto) : list event :=
  concat (mapi j (fun j' e => g_enum file parent (path ++ [tag; zn j']) scope (oe + (j' - j)) e) es).
Definition g_exts (file : nat) (parent : option nat) (path : list Z) (tag : Z) (scope : str)
    (ox : nat) (xs : list fproto) : list event :=
  mapi 0 (fun j x => EvExt (path ++ [tag; zn j]) (join_scope scope (fp_name x)) file parent (ox + j) x) xs.

Section GList.
  Context (g : nat -> nat -> nat -> nat -> dproto -> list event).   (* position, om, oe, ox *)
  Fixpoint g_list (j om oe ox : nat) (l : list dproto) : list event :=
    match l with
    | [] => []
    | n :: r => g j om oe ox n ++ g_list (S j) (om + msize n) (oe + esize n) (ox + xsize n) r
    end.
End GList.

Fixpoint g_message (file : nat) (parent : option nat) (path : list Z) (scope : str)
    (om oe ox : nat) (m : dproto) : list event :=
  match m with
  | DP name fields exts nested enums _ oneofs _ _ =>
      let full := join_scope scope name in
      EvMessage path full file parent om m
      :: g_oneofs file om path full oneofs
      ++ g_fields file om path full fields
      ++ g_list (fun j om' oe' ox' n =>
                   g_message file (Some om) (path ++ [3%Z; zn j]) full om' oe' ox' n)
                0 (S om) oe ox nested
      ++ g_enums file (Some om) path 4 full 0 (oe + list_sum (map esize nested)) enums
      ++ g_exts file (Some om) path 6 full (ox + list_sum (map xsize nested)) exts
  end.
Definition g_messages (file : nat) (parent : option nat) (path : list Z) (tag : Z) (scope : str) :=
  g_list (fun j om oe ox n => g_message file parent (path ++ [tag; zn j]) scope om oe ox n).

Definition g_service (file : nat) (path : list Z) (scope : str) (os : nat) (s : sproto) : list event :=
  let full := join_scope scope (sp_name s) in
  EvService path full file os s :: g_methods file os path full (sp_methods s).
Definition g_services (file : nat) (scope : str) (j os : nat) (ss : list sproto) : list event :=
  concat (mapi j (fun j' s => g_service file [6%Z; zn j'] scope (os + (j' - j)) s) ss).

Definition msizes (l : list dproto) := list_sum (map msize l).
Definition esizes (l : list dproto) := list_sum (map esize l).
Definition xsizes (l : list dproto) := list_sum (map xsize l).

Definition g_file (o : offsets) (f : file) : list event :=
  let pkg := fl_package f in
  let i := of_file o in
  EvFile [] i f
  :: g_messages i None [] 4 pkg 0 (of_msg o) (of_enum o) (of_ext o) (fl_messages f)
  ++ g_enums i None [] 5 pkg 0 (of_enum o + esizes (fl_messages f)) (fl_enums f)
  ++ g_services i pkg 0 (of_service o) (fl_services f)
  ++ g_exts i None [] 7 pkg (of_ext o + xsizes (fl_messages f)) (fl_exts f).

Definition off_file (o : offsets) (f : file) : offsets :=
  Off (S (of_file o)) (of_msg o + msizes (fl_messages f))
      (of_enum o + esizes (fl_messages f) + length (fl_enums f))
      (of_service o + length (fl_services f))
      (of_ext o + xsizes (fl_messages f) + length (fl_exts f)).
Fixpoint g_files (o : offsets) (fs : list file) : list event :=
  match fs with
  | [] => []
  | f :: r => g_file o f ++ g_files (off_file o f) r
  end.

(** ** The walk computes it, and restores path and scope *)

Lemma firstn_exact {A} (a b : list A) n : n = length a -> firstn n (a ++ b) = a.
Proof. intros ->. rewrite firstn_app, Nat.sub_diag, firstn_all. cbn. apply app_nil_r. Qed.

Lemma pop_push_scope : forall s n,
  firstn (length (join_scope s n) - length n - 1) (join_scope s n) = s.
Proof.
  intros s n. destruct s as [|a s].
  - cbn [join_scope]. now replace (length n - length n - 1)%nat with O by lia.
  - unfold join_scope. rewrite app_length. cbn [length].
    apply firstn_exact. cbn [length]. lia.
Qed.

Lemma pop_push_path (p : list Z) z : removelast (p ++ [z]) = p.
Proof. apply removelast_last. Qed.

Definition c_is (c : ctx) (o : offsets) (evs : list event) : ctx :=
  Ctx (c_path c) (c_scope c) o (c_evs c ++ evs).

Lemma c_is_app c o o' a b : c_is (c_is c o a) o' b = c_is c o' (a ++ b).
Proof. unfold c_is. cbn. now rewrite app_assoc. Qed.
Lemma c_is_nil c : c_is c (c_off c) [] = c.
Proof. unfold c_is. rewrite app_nil_r. now destruct c. Qed.

(** loops whose body leaves the offsets alone *)
Lemma each_leaf {A} (visit : nat -> A -> ctx -> ctx) (g : list Z -> str -> nat -> A -> event) :
  (forall i a c, visit i a c = c_is c (c_off c) [g (c_path c) (c_scope c) i a]) ->
  forall xs i c,
  each visit i xs c = c_is c (c_off c) (mapi i (fun j a => g (c_path c ++ [zn j]) (c_scope c) j a) xs).
Proof.
  intros H xs. induction xs as [|x xs IH]; intros i c; cbn [each mapi].
  - now rewrite c_is_nil.
  - rewrite H. unfold pop_path, push_path, c_is. cbn. rewrite pop_push_path, IH.
    unfold c_is. cbn. now rewrite <- app_assoc.
Qed.
Lemma under_leaf {A} tag (visit : nat -> A -> ctx -> ctx) (g : list Z -> str -> nat -> A -> event) :
  (forall i a c, visit i a c = c_is c (c_off c) [g (c_path c) (c_scope c) i a]) ->
  forall xs c,
  under tag visit xs c = c_is c (c_off c) (mapi 0 (fun j a => g (c_path c ++ [tag; zn j]) (c_scope c) j a) xs).
Proof.
  intros H xs c. unfold under. rewrite (each_leaf _ _ H).
  unfold pop_path, push_path, c_is. cbn. rewrite pop_push_path. f_equal. f_equal.
  apply mapi_ext. intros. now rewrite <- app_assoc.
Qed.

Lemma visit_field_eq file m i f c :
  visit_field file m i f c
  = c_is c (c_off c) [EvField (c_path c) (join_scope (c_scope c) (fp_name f)) file m i f].
Proof. unfold visit_field, pop_scope, push_scope, emit, c_is. cbn. now rewrite pop_push_scope. Qed.
Lemma visit_oneof_eq file m i o c :
  visit_oneof file m i o c
  = c_is c (c_off c) [EvOneof (c_path c) (join_scope (c_scope c) o) file m i o].
Proof. unfold visit_oneof, pop_scope, push_scope, emit, c_is. cbn. now rewrite pop_push_scope. Qed.
Lemma visit_method_eq file m i o c :
  visit_method file m i o c
  = c_is c (c_off c) [EvMethod (c_path c) (join_scope (c_scope c) (mp_name o)) file m i o].
Proof. unfold visit_method, pop_scope, push_scope, emit, c_is. cbn. now rewrite pop_push_scope. Qed.
Lemma visit_enum_value_eq file m i v c :
  visit_enum_value file m i v c
  = c_is c (c_off c) [EvEnumValue (c_path c) (join_scope (c_scope c) (fst v)) file m i v].
Proof. unfold visit_enum_value, pop_scope, push_scope, emit, c_is. cbn. now rewrite pop_push_scope. Qed.

Lemma visit_enum_eq file parent e c :
  visit_enum file parent e c
  = c_is c (c_off (inc_enum c)) (g_enum file parent (c_path c) (c_scope c) (of_enum (c_off c)) e).
Proof.
  unfold visit_enum.
  rewrite (under_leaf 2 _ (fun p s i v => EvEnumValue p (join_scope s (fst v)) file
      (of_enum (c_off c)) i v)).
  2:{ intros. apply visit_enum_value_eq. }
  unfold pop_scope, push_scope, emit, inc_enum, c_is. cbn. rewrite pop_push_scope.
  now rewrite <- app_assoc.
Qed.
Lemma visit_service_eq file s c :
  visit_service file s c
  = c_is c (c_off (inc_service c)) (g_service file (c_path c) (c_scope c) (of_service (c_off c)) s).
Proof.
  unfold visit_service.
  rewrite (under_leaf 2 _ (fun p sc i v => EvMethod p (join_scope sc (mp_name v)) file
      (of_service (c_off c)) i v)).
  2:{ intros. apply visit_method_eq. }
  unfold pop_scope, push_scope, emit, inc_service, c_is. cbn. rewrite pop_push_scope.
  now rewrite <- app_assoc.
Qed.
Lemma visit_ext_eq file parent x c :
  visit_ext file parent x c
  = c_is c (c_off (inc_ext c))
         [EvExt (c_path c) (join_scope (c_scope c) (fp_name x)) file parent (of_ext (c_off c)) x].
Proof. unfold visit_ext, pop_scope, push_scope, emit, inc_ext, c_is. cbn. now rewrite pop_push_scope. Qed.

Lemma c_is_congr c o o' a b : o = o' -> a = b -> c_is c o a = c_is c o' b.
Proof. congruence. Qed.

Lemma each_enums file parent es : forall j c,
  each (fun _ => visit_enum file parent) j es c
  = c_is c (let o := c_off c in Off (of_file o) (of_msg o) (of_enum o + length es) (of_service o) (of_ext o))
         (concat (mapi j (fun j' e => g_enum file parent (c_path c ++ [zn j']) (c_scope c)
                                             (of_enum (c_off c) + (j' - j)) e) es)).
Proof.
  induction es as [|e es IH]; intros j c; cbn [each mapi concat].
  - unfold c_is. destruct c as [p s o ev]. destruct o. cbn.
    rewrite Nat.add_0_r, app_nil_r. reflexivity.
  - rewrite visit_enum_eq. unfold pop_path, push_path, c_is, inc_enum. cbn.
    rewrite pop_push_path, IH. unfold c_is. cbn.
    rewrite <- app_assoc, Nat.sub_diag, Nat.add_0_r.
    f_equal; [f_equal; lia|]. f_equal. cbn. f_equal. f_equal. f_equal.
    clear. assert (forall k, (j <= k)%nat ->
      mapi (S k) (fun j' e0 => g_enum file parent (c_path c ++ [zn j']) (c_scope c)
                   (S (of_enum (c_off c)) + (j' - S j)) e0) es =
      mapi (S k) (fun j' e0 => g_enum file parent (c_path c ++ [zn j']) (c_scope c)
                   (of_enum (c_off c) + (j' - j)) e0) es) as H.
    { induction es as [|a l IH]; intros k Hk; cbn [mapi]; [reflexivity|]. f_equal.
      - f_equal. lia.
      - apply IH. lia. }
    apply (H j). lia.
Qed.
Lemma under_enums file parent tag es c :
  under tag (fun _ => visit_enum file parent) es c
  = c_is c (let o := c_off c in Off (of_file o) (of_msg o) (of_enum o + length es) (of_service o) (of_ext o))
         (g_enums file parent (c_path c) tag (c_scope c) 0 (of_enum (c_off c)) es).
Proof.
  unfold under. rewrite each_enums. unfold pop_path, push_path, c_is, g_enums. cbn.
  rewrite pop_push_path. f_equal. f_equal. f_equal. apply mapi_ext. intros. now rewrite <- app_assoc.
Qed.
Lemma each_services file ss : forall j c,
  each (fun _ => visit_service file) j ss c
  = c_is c (let o := c_off c in Off (of_file o) (of_msg o) (of_enum o) (of_service o + length ss) (of_ext o))
         (concat (mapi j (fun j' e => g_service file (c_path c ++ [zn j']) (c_scope c)
                                             (of_service (c_off c) + (j' - j)) e) ss)).
Proof.
  induction ss as [|e es IH]; intros j c; cbn [each mapi concat].
  - unfold c_is. destruct c as [p s o ev]. destruct o. cbn.
    rewrite Nat.add_0_r, app_nil_r. reflexivity.
  - rewrite visit_service_eq. unfold pop_path, push_path, c_is, inc_service. cbn.
    rewrite pop_push_path, IH. unfold c_is. cbn.
    rewrite <- app_assoc, Nat.sub_diag, Nat.add_0_r.
    f_equal; [f_equal; lia|]. f_equal. cbn. f_equal. f_equal. f_equal.
    clear. assert (forall k, (j <= k)%nat ->
      mapi (S k) (fun j' e0 => g_service file (c_path c ++ [zn j']) (c_scope c)
                   (S (of_service (c_off c)) + (j' - S j)) e0) es =
      mapi (S k) (fun j' e0 => g_service file (c_path c ++ [zn j']) (c_scope c)
                   (of_service (c_off c) + (j' - j)) e0) es) as H.
    { induction es as [|a l IH]; intros k Hk; cbn [mapi]; [reflexivity|]. f_equal.
      - f_equal. lia.
      - apply IH. lia. }
    apply (H j). lia.
Qed.
Lemma each_exts file parent xs : forall j c,
  each (fun _ => visit_ext file parent) j xs c
  = c_is c (let o := c_off c in Off (of_file o) (of_msg o) (of_enum o) (of_service o) (of_ext o + length xs))
         (mapi j (fun j' x => EvExt (c_path c ++ [zn j']) (join_scope (c_scope c) (fp_name x)) file parent
                                    (of_ext (c_off c) + (j' - j)) x) xs).
Proof.
  induction xs as [|e es IH]; intros j c; cbn [each mapi concat].
  - unfold c_is. destruct c as [p s o ev]. destruct o. cbn.
    rewrite Nat.add_0_r, app_nil_r. reflexivity.
  - rewrite visit_ext_eq. unfold pop_path, push_path, c_is, inc_ext. cbn.
    rewrite pop_push_path, IH. unfold c_is. cbn.
    rewrite <- app_assoc, Nat.sub_diag, Nat.add_0_r.
    f_equal; [f_equal; lia|]. f_equal. cbn. f_equal.
    clear. assert (forall k, (j <= k)%nat ->
      mapi (S k) (fun j' x => EvExt (c_path c ++ [zn j']) (join_scope (c_scope c) (fp_name x)) file parent
                   (S (of_ext (c_off c)) + (j' - S j)) x) es =
      mapi (S k) (fun j' x => EvExt (c_path c ++ [zn j']) (join_scope (c_scope c) (fp_name x)) file parent
                   (of_ext (c_off c) + (j' - j)) x) es) as H.
    { induction es as [|a l IH]; intros k Hk; cbn [mapi]; [reflexivity|]. f_equal.
      - f_equal. lia.
      - apply IH. lia. }
    apply (H j). lia.
Qed.
Lemma under_exts file parent tag xs c :
  under tag (fun _ => visit_ext file parent) xs c
  = c_is c (let o := c_off c in Off (of_file o) (of_msg o) (of_enum o) (of_service o) (of_ext o + length xs))
         (g_exts file parent (c_path c) tag (c_scope c) (of_ext (c_off c)) xs).
Proof.
  unfold under. rewrite each_exts. unfold pop_path, push_path, c_is, g_exts. cbn.
  rewrite pop_push_path. f_equal. f_equal. apply mapi_ext. intros. rewrite <- app_assoc.
  now rewrite Nat.sub_0_r.
Qed.

Definition off_msgs (o : offsets) (dm de dx : nat) : offsets :=
  Off (of_file o) (of_msg o + dm) (of_enum o + de) (of_service o) (of_ext o + dx).

Lemma each_messages file parent ns :
  Forall (fun n => forall p c, visit_message file p n c
     = c_is c (off_msgs (c_off c) (msize n) (esize n) (xsize n))
            (g_message file p (c_path c) (c_scope c) (of_msg (c_off c)) (of_enum (c_off c))
                       (of_ext (c_off c)) n)) ns ->
  forall j c,
  each (fun _ => visit_message file parent) j ns c
  = c_is c (off_msgs (c_off c) (msizes ns) (esizes ns) (xsizes ns))
         (g_list (fun j' om oe ox n => g_message file parent (c_path c ++ [zn j']) (c_scope c) om oe ox n)
                 j (of_msg (c_off c)) (of_enum (c_off c)) (of_ext (c_off c)) ns).
Proof.
  induction 1 as [|n ns Hn _ IH]; intros j c; cbn [each g_list].
  - unfold c_is, off_msgs. destruct c as [p s o ev]. destruct o. cbn.
    rewrite !Nat.add_0_r, app_nil_r. reflexivity.
  - rewrite Hn. unfold pop_path, push_path, c_is. cbn.
    rewrite pop_push_path, IH. unfold c_is, off_msgs, msizes, esizes, xsizes. cbn.
    rewrite <- app_assoc. f_equal. unfold list_sum. f_equal; lia.
Qed.

Lemma visit_message_eq file m : forall parent c,
  visit_message file parent m c
  = c_is c (off_msgs (c_off c) (msize m) (esize m) (xsize m))
         (g_message file parent (c_path c) (c_scope c) (of_msg (c_off c)) (of_enum (c_off c))
                    (of_ext (c_off c)) m).
Proof.
  induction m as [name fs xs ns es r os me rv IH] using dproto_ind'. intros parent c.
  destruct c as [p s [o1 o2 o3 o4 o5] ev]. cbn [visit_message].
  unfold push_scope. cbn [c_path c_scope c_off c_evs of_msg].
  unfold emit, inc_msg. cbn [c_path c_scope c_off c_evs of_file of_msg of_enum of_service of_ext].
  rewrite (under_leaf 8 (visit_oneof file o2)
            (fun p s i o => EvOneof p (join_scope s o) file o2 i o))
    by (intros; apply visit_oneof_eq).
  unfold c_is at 1. cbn [c_path c_scope c_off c_evs].
  rewrite (under_leaf 2 (visit_field file o2)
            (fun p s i o => EvField p (join_scope s (fp_name o)) file o2 i o))
    by (intros; apply visit_field_eq).
  unfold c_is at 1. cbn [c_path c_scope c_off c_evs].
  unfold under at 3. rewrite each_messages by exact IH.
  unfold c_is at 1, push_path, pop_path, off_msgs at 1.
  cbn [c_path c_scope c_off c_evs of_file of_msg of_enum of_service of_ext].
  rewrite pop_push_path, under_enums.
  unfold c_is at 1. cbn [c_path c_scope c_off c_evs of_file of_msg of_enum of_service of_ext].
  rewrite under_exts.
  unfold c_is, pop_scope. cbn [c_path c_scope c_off c_evs of_file of_msg of_enum of_service of_ext].
  rewrite pop_push_scope. unfold off_msgs.
  cbn [g_message msize esize xsize of_file of_msg of_enum of_service of_ext].
  unfold msizes, esizes, xsizes. f_equal; [f_equal; lia|].
  rewrite <- !app_assoc. cbn [app]. f_equal. f_equal.
  unfold g_oneofs, g_fields. f_equal. f_equal.
  f_equal.
  (* paths *)
  clear. generalize (S o2), o3, o5, O.
  induction ns as [|n ns IH]; intros a b d j; cbn [g_list]; [reflexivity|].
  rewrite IH. f_equal. now rewrite <- app_assoc.
Qed.

Lemma under_messages file parent tag ns c :
  under tag (fun _ => visit_message file parent) ns c
  = c_is c (off_msgs (c_off c) (msizes ns) (esizes ns) (xsizes ns))
         (g_messages file parent (c_path c) tag (c_scope c) 0 (of_msg (c_off c)) (of_enum (c_off c))
                     (of_ext (c_off c)) ns).
Proof.
  unfold under. rewrite each_messages.
  2:{ apply Forall_forall. intros. apply visit_message_eq. }
  unfold pop_path, push_path, c_is, g_messages. cbn. rewrite pop_push_path. f_equal. f_equal.
  generalize (of_msg (c_off c)), (of_enum (c_off c)), (of_ext (c_off c)), O.
  induction ns as [|n ns IH]; intros a b d j; cbn [g_list]; [reflexivity|].
  rewrite IH. f_equal. now rewrite <- app_assoc.
Qed.
Lemma under_services file ss c :
  under 6 (fun _ => visit_service file) ss c
  = c_is c (let o := c_off c in Off (of_file o) (of_msg o) (of_enum o) (of_service o + length ss) (of_ext o))
         (concat (mapi 0 (fun j' e => g_service file (c_path c ++ [6%Z; zn j']) (c_scope c)
                                             (of_service (c_off c) + j') e) ss)).
Proof.
  unfold under. rewrite each_services. unfold pop_path, push_path, c_is. cbn.
  rewrite pop_push_path. f_equal. f_equal. f_equal. apply mapi_ext. intros. rewrite <- app_assoc.
  now rewrite Nat.sub_0_r.
Qed.

Lemma visit_file_eq f c : c_path c = [] -> c_scope c = [] ->
  visit_file f c = c_is c (off_file (c_off c) f) (g_file (c_off c) f).
Proof.
  intros Hp Hs. unfold visit_file.
  set (c1 := match fl_package f with [] => c | _ => push_scope (fl_package f) c end).
  assert (c1 = Ctx [] (fl_package f) (c_off c) (c_evs c)) as ->.
  { subst c1. destruct c as [p s o e]. cbn in Hp, Hs. subst.
    destruct (fl_package f); reflexivity. }
  destruct c as [p s [o1 o2 o3 o4 o5] ev]. cbn [c_path c_scope c_off c_evs] in *. subst p s.
  unfold emit, inc_file. cbn [c_path c_scope c_off c_evs of_file of_msg of_enum of_service of_ext].
  match goal with |- match _ with [] => ?c | _ => _ end = _ =>
    assert (c = Ctx [] (fl_package f) (off_file (Off o1 o2 o3 o4 o5) f)
                    (ev ++ g_file (Off o1 o2 o3 o4 o5) f)) as -> end.
  { rewrite under_messages. unfold c_is at 1, off_msgs.
    cbn [c_path c_scope c_off c_evs of_file of_msg of_enum of_service of_ext].
    rewrite under_enums. unfold c_is at 1.
    cbn [c_path c_scope c_off c_evs of_file of_msg of_enum of_service of_ext].
    rewrite under_services. unfold c_is at 1.
    cbn [c_path c_scope c_off c_evs of_file of_msg of_enum of_service of_ext].
    rewrite under_exts. unfold c_is.
    cbn [c_path c_scope c_off c_evs of_file of_msg of_enum of_service of_ext].
    unfold off_file, g_file, g_services.
    cbn [c_path c_scope c_off c_evs of_file of_msg of_enum of_service of_ext].
    f_equal. rewrite <- !app_assoc. cbn [app].
    f_equal. f_equal. f_equal. f_equal. f_equal. f_equal.
    apply mapi_ext. intros. now rewrite Nat.sub_0_r. }
  destruct (fl_package f) as [|x l]; [reflexivity|].
  unfold pop_scope, c_is. cbn [c_path c_scope c_off c_evs].
  now replace (length (x :: l) - length (x :: l) - 1)%nat with O by lia.
Qed.

Lemma visit_files_eq fs : forall c, c_path c = [] -> c_scope c = [] ->
  c_evs (fold_left (fun c f => visit_file f c) fs c) = c_evs c ++ g_files (c_off c) fs.
Proof.
  induction fs as [|f fs IH]; intros c Hp Hs; cbn [fold_left g_files].
  - now rewrite app_nil_r.
  - rewrite visit_file_eq by assumption. rewrite IH by assumption.
    unfold c_is. cbn. now rewrite <- app_assoc.
Qed.
Theorem visit_eq o fs : visit o fs = g_files o fs.
Proof. unfold visit. now rewrite visit_files_eq. Qed.
