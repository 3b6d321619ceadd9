(** Oneofs and their fields, as the API shows them (C74). *)
From Coq Require Import String.
From Verif Require Import Base BaseProofs Value Descr Proto Build VisitProofs EventProofs BuildFrame BuildNames BuildQuiet BuildResolve BuildInv DeclSpec DeclProofs PoolFacts PoolMembers ExampleFiles Prop_Pool Prop_Members Prop_Declared Raw RawSpec RawTrack Prop_GivenBack Nav NavProofs Prop_Tree.
From Coq Require Import List Lia ZArith NArith Sorted.
Import ListNotations.
Local Open Scope list_scope.

(** [fd] is declared to be in the oneof at position [k] *)
Definition declared_member (k : nat) (fd : fproto) : Prop := fp_oneof fd = Some (Z.of_nat k).

Lemma members_sorted k fds : forall j, StronglySorted lt (members_from j k fds) /\ Forall (fun i => (j <= i)%nat) (members_from j k fds).
Proof.
  induction fds as [|f fds IH]; intros j; unfold members_from; cbn [mapi concat]; [split; constructor|].
  fold (members_from (S j) k fds). destruct (IH (S j)) as [St F].
  assert (Forall (fun i => (j <= i)%nat) (members_from (S j) k fds)) as F' by (eapply Forall_impl; [|exact F]; cbn; lia).
  destruct (f_oneof f) as [k'|]; [destruct (k' =? k)%nat|]; cbn [app]; auto. split; constructor; auto.
Qed.
Lemma members_declared (fds : list fproto) (xs : list field_inner) k :
  Forall2 (fun fd x => f_oneof x = option_map Z.to_nat (fp_oneof fd) /\ (forall z, fp_oneof fd = Some z -> (0 <= z)%Z)) fds xs ->
  forall pre all, all = pre ++ fds ->
  map (nth_error all) (members_from (length pre) k xs) = map Some (filter (in_oneof k) fds).
Proof.
  induction 1 as [|fd x fds xs H F IH]; intros pre all E; [reflexivity|].
  unfold members_from. cbn [mapi concat filter]. fold (members_from (S (length pre)) k xs).
  destruct H as (H1 & H4). rewrite map_app, H1.
  specialize (IH (pre ++ [fd]) all). rewrite app_length in IH. cbn [length] in IH. rewrite Nat.add_1_r in IH. rewrite IH by (rewrite <- app_assoc; exact E).
  unfold in_oneof at 2. destruct (fp_oneof fd) as [z|]; cbn [option_map]; [|reflexivity].
  specialize (H4 _ eq_refl). destruct (Nat.eqb_spec (Z.to_nat z) k) as [Ek|Ek]; destruct (Z.eqb_spec z (Z.of_nat k)); try lia; [|reflexivity].
  cbn [map app]. f_equal. subst all. rewrite nth_error_app2, Nat.sub_diag by lia. reflexivity.
Qed.
Lemma F2_alike {A B} (g : A -> A) (R : A -> B -> Prop) l l' xs : map g l = map g l' -> (forall a a' x, g a = g a' -> R a x -> R a' x) ->
  Forall2 R l xs -> Forall2 R l' xs.
Proof.
  intros E K F. revert l' E. induction F as [|a x l xs H F IH]; intros [|a' l'] E; try discriminate E; [constructor|].
  cbn in E. injection E as E1 E2. constructor; [exact (K _ _ _ E1 H)|exact (IH _ E2)].
Qed.

Section Message.
  Context (X : externs) (p : pool) (rs : list file) (SO : search_ok X) (S : Prop_Tree.shows X p rs)
    (i : nat) (m : message_inner) (Hm : nth_error (p_messages p) i = Some m).

  (** the fields of a message, its descriptor proto, and where they agree *)
  Lemma message_protos : exists d, descriptor_proto rs m = Ok d /\
    (forall n v y, nth_error (m_fields m) n = Some v -> nth_error (dp_fields d) n = Some y -> field_descriptor_proto rs m v = Ok y) /\
    Forall2 (fun fd x => f_oneof x = option_map Z.to_nat (fp_oneof fd) /\ (forall z, fp_oneof fd = Some z -> (0 <= z)%Z)) (dp_fields d) (m_fields m) /\
    (forall k o, nth_error (m_oneofs m) k = Some o -> o_fields o = members k (m_fields m)).
  Proof.
    pose proof (reachable_Inv _ _ SO (shows_reachable _ _ _ S)) as I. pose proof (shows_copies _ _ _ SO S) as C.
    destruct (Prop_Tree.message_shown X p rs I C i m Hm) as (k & f & f' & path & scope & d0 & d & He & Hf & M & E & Hf' & M' & B & D).
    destruct (iv_msgs _ _ I _ _ _ _ _ _ He) as (mi' & A & _ & _ & _ & _ & (n0 & _ & F) & _). rewrite Hm in A. apply Some_inj in A. subst mi'.
    destruct (blank_message_parts _ _ B) as (En & Efs & _). pose proof F as F0. rewrite (kids_of p _ 0%nat i _ He (or_introl eq_refl)) in F.
    exists d. split; [exact D|]. split; [|split].
    - intros n v y Hn Hy. destruct (F2_nth_r _ _ _ (fo_fields _ _ _ _ _ _ F) _ _ Hn) as (e & Ke & Sp). unfold g_fields in Ke. rewrite mapi_nth in Ke. cbn [plus] in Ke.
      destruct (nth_error (dp_fields d0) n) as [x|]; [|discriminate]. cbn in Ke. apply Some_inj in Ke. subst e.
      destruct Sp as (g & kd & df & _ & _ & _ & _ & _ & ->).
      unfold field_descriptor_proto. rewrite D. cbn [rbind f_id field_of mk_id id_path]. rewrite end_of. cbn [rbind]. apply index_pos. exact Hy.
    - eapply (F2_alike blank_field); [exact Efs| |].
      + intros a a' x Eb H. apply (f_equal fp_oneof) in Eb. cbn in Eb. rewrite <- Eb. exact H.
      + eapply F2_impl; [|exact (field_decl _ _ _ _ _ _ _ _ _ F)]. intros fd x _ [j (g' & k' & df & _ & N & _ & _ & Z & ->)].
        cbn. split; [reflexivity|]. intros z Ez. rewrite Ez in Z. apply Z.
    - intros k1 o Ho. exact (fo_oneofs _ _ _ _ _ _ F0 _ _ Ho).
  Qed.
End Message.

(** The fields of a oneof are those declared to be in it, in order, and those
    that name it as the oneof that contains them; and it is synthetic if and
    only if there is exactly one and this is declared optional (in the proto3
    way). *)
Theorem C74_oneofs X p rs i m k o d : search_ok X -> Prop_Tree.shows X p rs -> nth_error (p_messages p) i = Some m ->
  descriptor_proto rs m = Ok d -> nth_error (m_oneofs m) k = Some o ->
  (forall j, In j (o_fields o) <-> exists fd, nth_error (dp_fields d) j = Some fd /\ declared_member k fd) /\
  StronglySorted lt (o_fields o) /\
  (forall j x, nth_error (m_fields m) j = Some x -> (f_oneof x = Some k <-> In j (o_fields o))) /\
  exists r, is_synthetic rs m k = Ok r /\
    (r = true <-> exists j fd, o_fields o = [j] /\ nth_error (dp_fields d) j = Some fd /\ fp_optional fd = true).
Proof.
  intros SO S Hm Hd Ho. destruct (message_protos X p rs SO S i m Hm) as (d' & Hd' & Fp & F & Mo).
  rewrite Hd in Hd'. injection Hd' as <-. pose proof (Mo _ _ Ho) as E.
  assert (forall j, In j (o_fields o) <-> exists fd, nth_error (dp_fields d) j = Some fd /\ declared_member k fd) as Iff.
  { intros j. rewrite E, members_in. split.
    - intros (x & Hx & Hk). destruct (F2_nth_r _ _ _ F _ _ Hx) as (fd & Hfd & R1 & R2). exists fd. split; [exact Hfd|].
      unfold declared_member. rewrite R1 in Hk. destruct (fp_oneof fd) as [z|]; [|discriminate Hk]. cbn in Hk. apply Some_inj in Hk. specialize (R2 _ eq_refl). f_equal. lia.
    - intros (fd & Hfd & Hk). destruct (F2_nth_l _ _ _ F _ _ Hfd) as (x & Hx & R1 & _). exists x. split; [exact Hx|].
      rewrite R1. unfold declared_member in Hk. rewrite Hk. cbn. f_equal. lia. }
  split; [exact Iff|]. split; [rewrite E; exact (proj1 (members_sorted k _ 0))|]. split.
  { intros j x Hx. rewrite E, members_in. split; [eauto|]. intros (x' & Hx' & K). congruence. }
  unfold is_synthetic. rewrite Ho. cbn [need rbind]. destruct (o_fields o) as [|j [|j2 l]] eqn:El; cbn [length Nat.eqb].
  - exists false. split; [reflexivity|]. split; [discriminate|]. intros (? & ? & Q & _). discriminate Q.
  - destruct (proj1 (Iff j) (or_introl eq_refl)) as (fd & Hfd & _). destruct (F2_nth_l _ _ _ F _ _ Hfd) as (x & Hx & _).
    cbn [all_optional]. rewrite Hx. cbn [need rbind]. rewrite (Fp _ _ _ Hx Hfd). cbn [rbind]. exists (fp_optional fd). split; [destruct (fp_optional fd); reflexivity|].
    split; [eauto|]. intros (j' & fd' & Q & H1 & H2). injection Q as <-. congruence.
  - exists false. split; [reflexivity|]. split; [discriminate|]. intros (? & ? & Q & _). discriminate Q.
Qed.
Print Assumptions C74_oneofs.

(** Every field that is in a oneof is in one of the message's. *)
Theorem C74_containing X p rs i m j x k : search_ok X -> Prop_Tree.shows X p rs -> nth_error (p_messages p) i = Some m ->
  nth_error (m_fields m) j = Some x -> f_oneof x = Some k -> exists o, nth_error (m_oneofs m) k = Some o /\ In j (o_fields o).
Proof.
  intros SO S Hm Hx Hk. pose proof (reachable_Inv _ _ SO (shows_reachable _ _ _ S)) as I.
  destruct (message_decl X p i m I Hm) as (f & dm & scope & n0 & Hf & Hd & _ & _ & _ & _ & F & On & _).
  destruct (F2_nth_r _ _ _ (field_decl _ _ _ _ _ _ _ _ _ F) _ _ Hx) as (fd & Hfd & j' & (g & kd & df & _ & _ & _ & _ & Z & Ex)).
  assert (k < length (m_oneofs m))%nat as L.
  { rewrite Ex in Hk. cbn in Hk. destruct (fp_oneof fd) as [z|]; [|discriminate Hk]. cbn in Hk. apply Some_inj in Hk. destruct Z as [Z1 Z2].
    apply (f_equal (@length _)) in On. rewrite !map_length in On. unfold g_oneofs in On. rewrite mapi_length in On. lia. }
  destruct (nth_error (m_oneofs m) k) as [o|] eqn:Ho; [|apply nth_error_None in Ho; lia]. exists o. split; [reflexivity|].
  rewrite (fo_oneofs _ _ _ _ _ _ F _ _ Ho). apply members_in. eauto.
Qed.
Print Assumptions C74_containing.

(** ** Example *)

(** a oneof with two fields, one with one field that is not optional, and a
    synthetic one *)
Definition one_of (name : string) (n : Z) (k : Z) (opt : bool) : fproto := FP (b name) None n Optional TInt32 [] None (Some k) None None opt.
Definition oneof_file : file :=
  File (b "oneof.proto") (b "o") [] [] []
    [DP (b "M") [one_of "a" 1 0 false; one_of "c" 2 2 true; one_of "d" 3 0 true; one_of "e" 4 1 false] [] [] [] [] [b "two"; b "one"; b "_c"] false []]
    [] [] [] (Some (b "proto3")).
Definition pool_oneof : pool := built (build_files demo_externs 10 empty_pool [oneof_file]).
Definition back_oneof : list file := match given_back demo_externs 10 empty_pool [oneof_file] with Ok l => l | _ => [] end.
Example C74_nonvacuous : Prop_Tree.shows demo_externs pool_oneof ([] ++ back_oneof) /\
  exists m, nth_error (p_messages pool_oneof) 0 = Some m /\ map o_fields (m_oneofs m) = [[0; 2]; [3]; [1]]%nat /\
    is_synthetic back_oneof m 0 = Ok false /\ is_synthetic back_oneof m 1 = Ok false /\ is_synthetic back_oneof m 2 = Ok true.
Proof.
  split.
  - refine (sh_built demo_externs 10 empty_pool [] [oneof_file] pool_oneof back_oneof (sh_empty _) _ _ _);
      [constructor; [vm_compute; discriminate|constructor]|vm_compute; reflexivity|vm_compute; reflexivity].
  - eexists. split; [vm_compute; reflexivity|]. do 3 (split; [vm_compute; reflexivity|]). vm_compute; reflexivity.
Qed.
