(** The imports of a file (C72), and the extension and reserved ranges of a
    message (C73), as the API shows them. *)
From Coq Require Import String.
From Verif Require Import Base BaseProofs Value Descr Proto Build VisitProofs EventProofs BuildFrame BuildNames BuildQuiet BuildResolve BuildInv DeclSpec DeclProofs PoolFacts PoolMembers ExampleFiles Prop_Pool Prop_Members Prop_Declared RawSpec Prop_GivenBack Nav NavProofs Prop_Tree.
From Coq Require Import List Lia ZArith NArith.
Import ListNotations.
Local Open Scope list_scope.

(** ** C72, imports *)

Lemma collect_all {A B} (g : A -> res B) (P : A -> B -> Prop) l : (forall a, In a l -> exists c, g a = Ok c /\ P a c) ->
  exists cs, collect g l = Ok cs /\ Forall2 P l cs.
Proof.
  induction l as [|a l IH]; intros H; [exists []; auto|].
  destruct (H a (or_introl eq_refl)) as (c & E & Pc). destruct IH as (cs & Es & F); [intros; apply H; right; assumption|].
  exists (c :: cs). cbn. rewrite E. cbn. rewrite Es. auto.
Qed.

(** [dependencies] of a file gives, in order, the files its imports name, and
    [public_dependencies] those its public imports name; neither panics. *)
Theorem C72_imports X p rs k f : search_ok X -> Prop_Tree.shows X p rs -> nth_error rs k = Some f ->
  (exists js, dependencies p rs k = Ok js /\
     Forall2 (fun name j => exists g, nth_error rs j = Some g /\ fl_name g = name) (fl_deps f) js) /\
  (exists js, public_dependencies p rs k = Ok js /\
     Forall2 (fun z j => (0 <= z)%Z /\ exists name g, nth_error (fl_deps f) (Z.to_nat z) = Some name /\
                         nth_error rs j = Some g /\ fl_name g = name) (fl_public f) js).
Proof.
  intros SO S H. pose proof (shows_reachable _ _ _ S) as R. pose proof (shows_copies _ _ _ SO S) as C.
  destruct (copy_from p rs C k f H) as (f0 & Hf & B).
  assert (fl_deps f0 = fl_deps f /\ fl_public f0 = fl_public f) as [Ed Ep] by (destruct f0, f; cbn in B; injection B; cbn; auto).
  unfold pool_files in Hf. apply nth_map_some in Hf. destruct Hf as (fi & Hfi & Ef).
  destruct (C35_imports_exist X p SO R k fi Hfi) as [D P]. rewrite Ef, Ed in D. rewrite Ef, Ed, Ep in P.
  assert (forall name, In name (fl_deps f) -> exists j, need (get_file_by_name p name) = Ok j /\ exists g, nth_error rs j = Some g /\ fl_name g = name) as L.
  { intros name Hn. apply In_nth_error in Hn. destruct Hn as (n & Hn). destruct (F2_nth_l _ _ _ D _ _ Hn) as (j & _ & G).
    exists j. rewrite (proj2 (C23_file_lookup X p SO R name j) G). split; [reflexivity|].
    destruct G as (g & Hg & <-). destruct (copy_of p rs C _ _ Hg) as (g' & Hg' & Bg). exists g'. split; [exact Hg'|].
    destruct g, g'. cbn in Bg. injection Bg. cbn. auto. }
  unfold dependencies, public_dependencies, file_proto. rewrite H. cbn [need rbind]. split.
  - apply collect_all. exact L.
  - apply collect_all. intros z Hz. specialize (P z (or_introl Hz)). replace (z <? 0)%Z with false by (symmetry; apply Z.ltb_ge; lia).
    unfold index. destruct (nth_error (fl_deps f) (Z.to_nat z)) as [name|] eqn:En; [|apply nth_error_None in En; lia].
    destruct (L name (nth_error_In _ _ En)) as (j & Ej & g & Hg & Eg). exists j. cbn [need rbind]. split; [exact Ej|]. split; [lia|]. eauto.
Qed.
Print Assumptions C72_imports.

(** ** C73 *)

(** [n] is in one of the ranges, shown or declared; the end is not part of a range *)
Definition within (n : N) (l : list (N * N)) : Prop := exists lo hi, In (lo, hi) l /\ (lo <= n < hi)%N.
Definition declared_in (z : Z) (l : list (Z * Z)) : Prop := exists lo hi, In (lo, hi) l /\ (lo <= z < hi)%Z.
(** no bound is negative (or too large for the 32 bits it is stored in) *)
Definition bounds_ok (l : list (Z * Z)) : Prop :=
  forall lo hi, In (lo, hi) l -> (0 <= lo < 2147483648)%Z /\ (0 <= hi < 2147483648)%Z.

Lemma as_u32_pos z : (0 <= z < 2147483648)%Z -> as_u32 z = Z.to_N z.
Proof.
  unfold as_u32. intros H. rewrite Z.mod_small; [reflexivity|lia].
Qed.
Lemma as_ranges_in l : bounds_ok l -> forall n, within n (as_ranges l) <-> declared_in (Z.of_N n) l.
Proof.
  intros K n. unfold within, declared_in, as_ranges. split.
  - intros (lo & hi & H & L). apply in_map_iff in H. destruct H as ([a c] & E & H). cbn [fst snd] in E. destruct (K _ _ H) as [A B].
    rewrite (as_u32_pos _ A), (as_u32_pos _ B) in E. injection E as <- <-. exists a, c. split; [exact H|lia].
  - intros (a & c & H & L). destruct (K _ _ H) as [A B]. exists (as_u32 a), (as_u32 c). split.
    + apply in_map_iff. exists (a, c). auto.
    + rewrite (as_u32_pos _ A), (as_u32_pos _ B). lia.
Qed.

Lemma raw_found X p i m : search_ok X -> reachable X p -> nth_error (p_messages p) i = Some m ->
  exists f scope dm, nth_error (pool_files p) (id_file (m_id m)) = Some f /\ message_at f (id_path (m_id m)) scope dm /\
    raw_message p m = Ok dm.
Proof.
  intros SO R H. destruct (C26_fields_declared X p i m SO R H) as (f & dm & scope & Hf & M & _). exists f, scope, dm.
  split; [exact Hf|]. split; [exact M|]. unfold pool_files in Hf. apply nth_map_some in Hf. destruct Hf as (fi & Hfi & <-).
  unfold raw_message. rewrite Hfi. cbn [need rbind]. rewrite (message_at_found _ _ _ _ M). reflexivity.
Qed.
Lemma same_message f path s s' d d' : message_at f path s d -> message_at f path s' d' -> d = d'.
Proof. intros A B. pose proof (message_at_found _ _ _ _ A) as E. rewrite (message_at_found _ _ _ _ B) in E. congruence. Qed.

(** The ranges shown hold the numbers that the declared ranges hold. *)
Theorem C73_ranges X p i m : search_ok X -> reachable X p -> nth_error (p_messages p) i = Some m ->
  exists f scope dm er rr,
    nth_error (pool_files p) (id_file (m_id m)) = Some f /\ message_at f (id_path (m_id m)) scope dm /\
    extension_ranges p m = Ok er /\ reserved_ranges p m = Ok rr /\
    length er = length (dp_ext_ranges dm) /\ length rr = length (dp_reserved dm) /\
    (bounds_ok (dp_ext_ranges dm) -> forall n, within n er <-> declared_in (Z.of_N n) (dp_ext_ranges dm)) /\
    (bounds_ok (dp_reserved dm) -> forall n, within n rr <-> declared_in (Z.of_N n) (dp_reserved dm)).
Proof.
  intros SO R H. destruct (raw_found X p i m SO R H) as (f & scope & dm & Hf & M & E).
  exists f, scope, dm, (as_ranges (dp_ext_ranges dm)), (as_ranges (dp_reserved dm)).
  unfold extension_ranges, reserved_ranges. rewrite E. cbn [rbind].
  split; [exact Hf|]. split; [exact M|]. split; [reflexivity|]. split; [reflexivity|].
  split; [apply map_length|]. split; [apply map_length|]. split; intros K n; apply as_ranges_in; exact K.
Qed.
Print Assumptions C73_ranges.

Lemma ext_same f path s s' fd fd' : declares f path s (IExt fd) -> declares f path s' (IExt fd') -> fd = fd'.
Proof.
  assert (forall s fd, declares f path s (IExt fd) -> element 7 6 fl_exts dp_exts f path = Ok fd) as L.
  { clear. intros s fd D. inversion D as [| | |path0 scope0 m j x0 M Hx|j x0 Hx| | | |]; subst.
    - exact (element_inner 7 6 _ _ _ _ _ _ _ _ M Hx).
    - apply element_top. exact Hx. }
  intros A B. apply L in A, B. congruence.
Qed.

(** No field and no extension of a message has a number in a range it shows as
    reserved; its fields are outside its extension ranges and the extensions of
    it inside.  (Descriptors not written by a compiler may name an extendee for
    a field, or none for an extension.) *)
Theorem C73_members X p i m f scope dm er rr : search_ok X -> reachable X p -> nth_error (p_messages p) i = Some m ->
  nth_error (pool_files p) (id_file (m_id m)) = Some f -> message_at f (id_path (m_id m)) scope dm ->
  bounds_ok (dp_ext_ranges dm) -> bounds_ok (dp_reserved dm) ->
  extension_ranges p m = Ok er -> reserved_ranges p m = Ok rr ->
  (forall n fd v, nth_error (dp_fields dm) n = Some fd -> nth_error (msg_fields_index (p_tables p) i) n = Some v ->
     ~ within (fd_number v) rr /\ (fp_extendee fd = None -> ~ within (fd_number v) er)) /\
  (forall j x, nth_error (p_exts p) j = Some x -> x_extendee x = i ->
     ~ within (fd_number (ext_view (p_tables p) x)) rr /\
     (forall xf s fd, nth_error (pool_files p) (id_file (x_id x)) = Some xf -> declares xf (id_path (x_id x)) s (IExt fd) ->
        fp_extendee fd <> None -> within (fd_number (ext_view (p_tables p) x)) er)).
Proof.
  intros SO R H Hf M Be Br He Hr.
  destruct (C73_ranges X p i m SO R H) as (f1 & s1 & d1 & er1 & rr1 & Hf1 & M1 & E1 & R1 & _ & _ & Ie & Ir).
  rewrite Hf in Hf1. apply Some_inj in Hf1. subst f1. pose proof (same_message _ _ _ _ _ _ M1 M). subst d1.
  rewrite He in E1. injection E1 as <-. rewrite Hr in R1. injection R1 as <-. specialize (Ie Be). specialize (Ir Br). split.
  - intros n fd v Hn Hv. destruct (C26_fields_declared X p i m SO R H) as (f2 & d2 & s2 & Hf2 & M2 & _ & F & _ & _ & _ & V).
    rewrite Hf in Hf2. apply Some_inj in Hf2. subst f2. pose proof (same_message _ _ _ _ _ _ M2 M). subst d2.
    destruct (F2_nth_l _ _ _ F _ _ Hn) as (v' & Hv' & Sh). rewrite Hv in Hv'. apply Some_inj in Hv'. subst v'.
    destruct Sh as (_ & Nb & _). destruct (V fd (nth_error_In _ _ Hn)) as (_ & _ & V1 & V2). rewrite Ir, Ie, Nb. split.
    + intros (lo & hi & A & B). exact (V1 lo hi A B).
    + intros Ex (lo & hi & A & B). exact (V2 Ex lo hi A B).
  - intros j x Hx Ei. destruct (C55_extensions X p j x SO R Hx) as (xf & g & sy & s & fd & n0 & Hxf & _ & D & _ & _ & _ & Nb & _ & _ & _ & _ & _ & _ & _ & _ & _ & _ & (mi & mf & ms & d2 & Hmi & Hmf & Mm & V1 & V2)).
    rewrite Ei, H in Hmi. apply Some_inj in Hmi. subst mi. rewrite Hf in Hmf. apply Some_inj in Hmf. subst mf.
    pose proof (same_message _ _ _ _ _ _ Mm M). subst d2. rewrite Ir, Nb. split.
    + intros (lo & hi & A & B). exact (V1 lo hi A B).
    + intros xf' s' fd' Hxf' D' Ex. rewrite Hxf in Hxf'. apply Some_inj in Hxf'. subst xf'. pose proof (ext_same _ _ _ _ _ _ D' D). subst fd'.
      apply Ie. rewrite Nb. exact (V2 Ex).
Qed.
Print Assumptions C73_members.

(** The bounds are needed: a range that starts below zero is accepted, and so
    is an extension with a number in it, but the start wraps around in what the
    API shows, and the range it shows holds no number at all. *)
Definition negative_file : file :=
  File (b "negative.proto") [] [] [] [] [DP (b "M") [] [] [] [] [((-5)%Z, 100%Z)] [] false []] [] []
       [FP (b "x") (Some (b ".M")) 50 Optional TInt32 [] None None None None false] None.
Definition pool_negative : pool := built (build_files demo_externs 10 empty_pool [negative_file]).
Theorem C73_refuted_negative_bound : exists X p m x, search_ok X /\ reachable X p /\
  nth_error (p_messages p) 0 = Some m /\ nth_error (p_exts p) 0 = Some x /\ x_extendee x = 0%nat /\
  fd_number (ext_view (p_tables p) x) = 50%N /\
  extension_ranges p m = Ok [(4294967291%N, 100%N)] /\ ~ within 50 [(4294967291%N, 100%N)].
Proof.
  exists demo_externs, pool_negative. eexists. eexists.
  split; [exact demo_search|]. split; [|split; [vm_compute; reflexivity|split; [vm_compute; reflexivity|]]].
  - apply (re_built demo_externs 10 empty_pool [negative_file]); [constructor|repeat constructor; discriminate|vm_compute; reflexivity].
  - split; [vm_compute; reflexivity|]. split; [vm_compute; reflexivity|]. split; [vm_compute; reflexivity|].
    intros (lo & hi & [E|[]] & L). injection E as <- <-. lia.
Qed.
Print Assumptions C73_refuted_negative_bound.

(** ** Examples *)

(** the second example file imports the first; [a.b.M] has the extension range
    100 to 199 and reserves 50 to 59; its extensions have the numbers 100 and
    101, its fields 1 to 5 *)
Example C72_imports_listed :
  dependencies pool_abcd (back_ab ++ back_cd) 0 = Ok [] /\ dependencies pool_abcd (back_ab ++ back_cd) 1 = Ok [0%nat] /\
  dependencies pool_abcd (back_ab ++ back_cd) 2 = Panic.
Proof. split; [vm_compute; reflexivity|]. split; vm_compute; reflexivity. Qed.
Example C73_nonvacuous : exists m,
  nth_error (p_messages pool_abcd) 0 = Some m /\ m_exts m = [0; 1]%nat /\
  map fd_number (msg_fields_index (p_tables pool_abcd) 0) = [1; 2; 3; 4; 5]%N /\ map x_number (p_exts pool_abcd) = [100; 101]%N /\
  extension_ranges pool_abcd m = Ok [(100, 200)%N] /\ reserved_ranges pool_abcd m = Ok [(50, 60)%N] /\
  bounds_ok [(100, 200)%Z] /\ bounds_ok [(50, 60)%Z].
Proof.
  eexists. split; [vm_compute; reflexivity|]. do 5 (split; [vm_compute; reflexivity|]).
  split; intros lo hi [E|[]]; injection E as <- <-; lia.
Qed.
