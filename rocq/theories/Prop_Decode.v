(** C04, C05: decoding arbitrary bytes. *)
From Verif Require Import Base BaseProofs Wire WireProofs LoopProofs Unknown UnknownProofs Value Descr
  Fields Codec DescrOk DescrProofs FieldsProofs MergeProofs DepthProofs ExampleSchema.
Open Scope N_scope.

(** Merging any bytes into any valid message (in particular a new one) ends
    with success, having read everything, or with an error; it never panics and
    never runs out of steps, and the message is valid afterwards in both cases. *)
Theorem C04_merge_total t m b :
  wf t -> ok_msg t m = true -> bytes_ok b ->
  match msg_merge t m b with
  | DOk m' rest => ok_msg t m' = true /\ dm_desc m' = dm_desc m /\ rest = []
  | DErr _ m' => ok_msg t m' = true /\ dm_desc m' = dm_desc m
  | DPanic | DFuel => False
  end.
Proof.
  intros Hwf Hm Hb. apply ok_msg_iff in Hm.
  assert (H := msg_merge_good t Hwf (merge_fuel b) (dm_desc m) (Nat.max (msg_depth m) (S ctx0)) m b).
  unfold msg_merge. destruct (msg_merge_fuel (merge_fuel b) t m b) as [m' r|e m'| |].
  - destruct H as [(H1 & H2 & H3) H4]; auto.
    + unfold merge_fuel. change ctx0 with 100%nat. lia.
    + apply Nat.le_max_r.
    + split; [reflexivity|]. split; [exact Hm|apply Nat.le_max_l].
    + split; [now apply ok_msg_iff|]. split; assumption.
  - destruct H as (H1 & H2 & H3); auto.
    + unfold merge_fuel. change ctx0 with 100%nat. lia.
    + apply Nat.le_max_r.
    + split; [reflexivity|]. split; [exact Hm|apply Nat.le_max_l].
    + split; [now apply ok_msg_iff|assumption].
  - apply H; auto.
    + unfold merge_fuel. change ctx0 with 100%nat. lia.
    + apply Nat.le_max_r.
    + split; [reflexivity|]. split; [exact Hm|apply Nat.le_max_l].
  - apply H; auto.
    + unfold merge_fuel. change ctx0 with 100%nat. lia.
    + apply Nat.le_max_r.
    + split; [reflexivity|]. split; [exact Hm|apply Nat.le_max_l].
Qed.
Print Assumptions C04_merge_total.

Theorem C04_decode_total t d b :
  wf t -> (d < length (t_messages t))%nat -> bytes_ok b ->
  match msg_decode t d b with
  | Ok m => ok_msg t m = true /\ dm_desc m = d
  | Err _ => True
  | Panic | Fuel => False
  end.
Proof.
  intros Hwf Hd Hb. unfold msg_decode.
  assert (H := C04_merge_total t (new_msg d) b Hwf (proj2 (ok_msg_iff _ _) (new_msg_ok _ _ Hd)) Hb).
  destruct (msg_merge t (new_msg d) b); auto. tauto.
Qed.
Print Assumptions C04_decode_total.

Example C04_example :
  msg_decode ex 0 [8; 42] = Ok (DM 0 [(1, SVal (VI32 42))]) /\
  msg_decode ex 0 [8] = Err EVarint /\
  msg_decode ex 0 [10; 42] = Err EWireType.
Proof. repeat split; vm_compute; reflexivity. Qed.

(** 202 nested calls are enough whatever the input: any larger bound gives the
    same result (and, by C04, the result is never the out-of-fuel outcome). *)
Theorem C05_stack_independent_of_input t m b n :
  wf t -> ok_msg t m = true -> bytes_ok b -> (202 <= n)%nat ->
  msg_merge_fuel n t m b = msg_merge_fuel 202 t m b /\ msg_merge_fuel 202 t m b <> DFuel.
Proof.
  intros Hwf Hm Hb Hn. apply ok_msg_iff in Hm.
  assert (Hi : msg_inv t (dm_desc m) (msg_depth m) m) by (split; [reflexivity|split; [exact Hm|lia]]).
  split; [eapply msg_merge_202; eassumption|].
  assert (H := msg_merge_good t Hwf 202 (dm_desc m) (Nat.max (msg_depth m) (S ctx0)) m b).
  intros E. rewrite E in H. apply H; auto.
  - apply Nat.le_max_r.
  - split; [reflexivity|]. split; [exact Hm|apply Nat.le_max_l].
Qed.
Print Assumptions C05_stack_independent_of_input.

(** A record nested more than 100 levels deep (length-delimited messages,
    groups and message-valued map entries in any combination) is rejected,
    whatever the innermost bytes and whatever follows. *)
Theorem C05_deep_input_rejected t m p inner rest :
  wf t -> ok_msg t m = true -> path_ok t (dm_desc m) p -> (100 < length p)%nat ->
  N.of_nat (length (wrap p inner)) < 2 ^ 64 ->
  exists m', msg_merge t m (wrap p inner ++ rest) = DErr ERecursion m'.
Proof.
  intros Hwf Hm Hp Hl Hsz. apply ok_msg_iff in Hm.
  eapply (deep_input_rejected t Hwf (dm_desc m) (msg_depth m)); eauto.
  split; [reflexivity|]. split; [exact Hm|lia].
Qed.
Print Assumptions C05_deep_input_rejected.

(** the same for groups that are not known to the schema *)
Theorem C05_deep_unknown_groups_rejected t m num nums inner :
  find_desc t (dm_desc m) num = None -> tag_ok num -> Forall tag_ok nums ->
  (100 <= length nums)%nat ->
  msg_merge t m (wrap_unknown (num :: nums) inner) = DErr ERecursion m.
Proof. exact (deep_unknown_rejected t m num nums inner). Qed.
Print Assumptions C05_deep_unknown_groups_rejected.

(** Nothing decoded into a new message is nested deeper than the limit plus
    one (the extra level: a map entry without a value holds an empty message). *)
Theorem C05_result_depth t d b m :
  wf t -> (d < length (t_messages t))%nat -> bytes_ok b ->
  msg_decode t d b = Ok m -> (msg_depth m <= 101)%nat.
Proof.
  intros Hwf Hd Hb H. unfold msg_decode, msg_merge in H.
  assert (G := msg_merge_good t Hwf (merge_fuel b) d (S ctx0) (new_msg d) b).
  destruct (msg_merge_fuel (merge_fuel b) t (new_msg d) b) as [m' r|e m'| |]; try discriminate.
  injection H as ->. destruct G as [(_ & _ & G) _]; auto.
  - unfold merge_fuel. change ctx0 with 100%nat. lia.
  - split; [reflexivity|]. split; [now apply new_msg_ok|]. apply Nat.le_0_l.
Qed.
Print Assumptions C05_result_depth.

(** 101 levels through M.child are rejected, 100 are accepted. *)
Lemma ex_child_path k : path_ok ex 0 (repeat (LMsg 7) k).
Proof.
  induction k as [|k IH]; [exact I|]. cbn [repeat path_ok]. exists (ex_f 7), 0%nat.
  split; [vm_compute; reflexivity|]. split; [vm_compute; reflexivity|].
  split; [vm_compute; reflexivity|exact IH].
Qed.
Example C05_example :
  path_ok ex 0 (repeat (LMsg 7) 101) /\
  msg_decode ex 0 (wrap (repeat (LMsg 7) 101) []) = Err ERecursion /\
  is_ok (msg_decode ex 0 (wrap (repeat (LMsg 7) 100) [])) = true.
Proof.
  split; [apply ex_child_path|]. split; vm_compute; reflexivity.
Qed.
(** the extra level of [C05_result_depth] is reached *)
Example C05_result_depth_sharp :
  exists m, msg_decode ex 0 (wrap (repeat (LMsg 7) 100) [34; 0]) = Ok m /\ msg_depth m = 101%nat.
Proof. eexists. split; vm_compute; reflexivity. Qed.
