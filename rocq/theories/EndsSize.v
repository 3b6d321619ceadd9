(** C67: how long the byte strings are that a message holds, and that reading
    makes none longer than what is read. *)
From Coq Require Import List Arith Lia.
From Verif Require Import Base BaseProofs Wire WireProofs Unknown UnknownProofs Value Descr Fields Codec DescrOk DescrProofs FieldsProofs
  WireSpec WireSpecScalars.
Open Scope list_scope.
Open Scope nat_scope.

(** the longest delimited record in an unknown field *)
Fixpoint longest_unknown (u : ufield) : nat :=
  match u with
  | ULen _ bs => length bs
  | UGroup _ us => list_max (map longest_unknown us)
  | _ => 0
  end.
Definition own_length (v : value) : nat := match v with VString s | VBytes s => length s | _ => 0 end.
(** the longest string or byte string that a singular field of a message holds,
    anywhere in the value *)
Fixpoint longest (v : value) : nat :=
  match v with
  | VMessage (DM _ fs) =>
      list_max (map (fun kv => match snd kv with
                               | Taken => 0
                               | SVal w => Nat.max (own_length w) (longest w)
                               | SUnk us => list_max (map longest_unknown us)
                               end) fs)
  | VList vs => list_max (map longest vs)
  | VMap kvs => list_max (map (fun kv => longest (snd kv)) kvs)
  | _ => 0
  end.

Lemma max_le {A} (f : A -> nat) l k : list_max (map f l) <= k <-> forall x, In x l -> f x <= k.
Proof.
  rewrite list_max_le, Forall_forall. split; intros H x Hx.
  - apply H, in_map, Hx.
  - apply in_map_iff in Hx. destruct Hx as (y & <- & Hy). auto.
Qed.
Definition slot_longest (s : slot value) : nat :=
  match s with Taken => 0 | SVal w => Nat.max (own_length w) (longest w) | SUnk us => list_max (map longest_unknown us) end.
Lemma longest_msg m k : longest (VMessage m) <= k <-> forall n s, In (n, s) (dm_fields m) -> slot_longest s <= k.
Proof.
  destruct m as [d fs]. cbn [longest dm_fields]. rewrite max_le. split.
  - intros H n s Hi. exact (H (n, s) Hi).
  - intros H [n s] Hi. exact (H n s Hi).
Qed.
Lemma longest_list vs k : longest (VList vs) <= k <-> forall x, In x vs -> longest x <= k.
Proof. apply max_le. Qed.
Lemma longest_map kvs k : longest (VMap kvs) <= k <-> forall x, In x kvs -> longest (snd x) <= k.
Proof. cbn [longest]. apply (max_le (fun kv => longest (snd kv))). Qed.
Lemma longest_new d : longest (VMessage (new_msg d)) = 0. Proof. reflexivity. Qed.

Lemma clear_oneof_In f fs x : In x (fs_clear_oneof f fs) -> In x fs.
Proof.
  unfold fs_clear_oneof. destruct (fd_oneof f) as [nums|]; [|auto]. revert fs. induction nums as [|n nums IH]; intros fs; cbn [fold_left]; [auto|].
  intros H. apply IH in H. destruct (n =? fd_number f)%N; [exact H|]. unfold bt_remove in H. now apply filter_In in H.
Qed.
Lemma longest_set m f v k : longest (VMessage m) <= k -> Nat.max (own_length v) (longest v) <= k ->
  longest (VMessage (with_fields m (fs_set f v (dm_fields m)))) <= k.
Proof.
  rewrite !longest_msg. intros H Hv n s. cbn [dm_fields with_fields]. unfold fs_set. intros Hi. apply bt_set_In in Hi.
  destruct Hi as [E|Hi]; [injection E as -> ->; exact Hv|]. apply clear_oneof_In in Hi. eauto.
Qed.
Lemma longest_unknown_add m n u fs k : longest (VMessage m) <= k -> longest_unknown u <= k ->
  fs_add_unknown n u (dm_fields m) = Ok fs -> longest (VMessage (with_fields m fs)) <= k.
Proof.
  rewrite !longest_msg. intros H Hu E n' s. cbn [dm_fields with_fields]. unfold fs_add_unknown in E.
  assert (G : forall us, (forall x, In x us -> longest_unknown x <= k) -> Ok (bt_set n (SUnk us) (dm_fields m)) = Ok fs -> In (n', s) fs -> slot_longest s <= k).
  { intros us Hus [= <-] Hi. apply bt_set_In in Hi. destruct Hi as [Ei|Hi]; [injection Ei as -> ->; cbn [slot_longest]; now apply max_le|eauto]. }
  destruct (bt_get n (dm_fields m)) as [[|v|us]|] eqn:Eb; try discriminate E.
  - apply (G [u]); [|exact E]. intros x [<-|[]]; exact Hu.
  - apply (G (us ++ [u])); [|exact E]. intros x Hx. apply in_app_iff in Hx. destruct Hx as [Hx|[<-|[]]]; [|exact Hu].
    apply bt_get_In in Eb. specialize (H _ _ Eb). cbn [slot_longest] in H. rewrite max_le in H. auto.
  - apply (G [u]); [|exact E]. intros x [<-|[]]; exact Hu.
Qed.
Lemma in_insert {A} k (v : A) l x : In x (map_insert k v l) -> (snd x = v) \/ In x l.
Proof.
  induction l as [|[k' v'] l IH]; cbn [map_insert].
  - intros [<-|[]]; auto.
  - destruct (mk_eqb k k'); intros [<-|H]; cbn; auto. destruct (IH H); auto.
Qed.

Lemma sc_longest k v : sc_okb k v = true -> longest v = 0.
Proof. destruct v; try reflexivity; destruct k; discriminate. Qed.
Lemma kind_default_longest t k : longest (kind_default t k) = 0.
Proof. destruct k; reflexivity. Qed.
Lemma default_longest t d n f : tables_ok t -> find_desc t d n = Some f -> longest (fd_default_value t f) = 0.
Proof.
  intros Ht Hf. pose proof (find_desc_ok _ _ _ _ Ht Hf) as Ho. unfold fd_default_value. destruct (fd_is_list f); [reflexivity|]. destruct (fd_is_map f); [reflexivity|].
  destruct (fd_default f) as [v|] eqn:E; [|apply kind_default_longest]. eapply sc_longest, (fo_default _ _ Ho), E.
Qed.
Lemma get_longest t m n f : tables_ok t -> find_desc t (dm_desc m) n = Some f -> longest (get_field_value t m f) <= longest (VMessage m).
Proof.
  intros Ht Hf. unfold get_field_value, fs_get, fs_get_value. destruct (bt_get (fd_number f) (dm_fields m)) as [[|v|us]|] eqn:E;
    try (rewrite (default_longest _ _ _ _ Ht Hf); lia).
  apply bt_get_In in E. pose proof (proj1 (longest_msg m _) (le_n _) _ _ E) as H. cbn [slot_longest] in H. lia.
Qed.

Lemma delimited_longer s pl : delimited s pl -> length s < length pl.
Proof. intros (lb & V & ->). rewrite app_length. destruct V as [V _]. pose proof (varint_nonempty _ _ V). lia. Qed.
Lemma scalar_longest k w x pl : scalar k w x pl -> longest x = 0 /\ own_length x <= length pl.
Proof. intros H. destruct H; cbn; split; try lia; apply delimited_longer in H; lia. Qed.
Lemma raw_longest : (forall n u pl, raw n u pl -> longest_unknown u <= length pl) /\
  (forall n us b, raws n us b -> forall u, In u us -> longest_unknown u <= length b).
Proof.
  apply (raw_both (fun n u pl _ => longest_unknown u <= length pl) (fun n us b _ => forall u, In u us -> longest_unknown u <= length b)); cbn [longest_unknown]; intros; try lia.
  - apply delimited_longer in d. lia.
  - rewrite app_length. apply max_le. intros u Hu. specialize (H u Hu). lia.
  - destruct H.
  - destruct H1 as [<-|H1]; rewrite !app_length; [lia|]. specialize (H0 _ H1). lia.
Qed.

Section Reads.
  Variables (t : tables) (ew : wt -> Prop).
  Hypothesis Ht : tables_ok t.

  Lemma reads_longest :
    (forall n f v w pl v', reads_value t ew n f v w pl v' -> longest v' <= Nat.max (longest v) (length pl) /\ own_length v' <= length pl) /\
    (forall n kf vf k v b k' v', reads_entry t ew n kf vf k v b k' v' -> longest v' <= Nat.max (longest v) (length b)) /\
    (forall n m b m', reads_message t ew n m b m' -> longest (VMessage m') <= Nat.max (longest (VMessage m)) (pred (length b))).
  Proof.
    apply (reads_mut t ew
      (fun n f v w pl v' _ => longest v' <= Nat.max (longest v) (length pl) /\ own_length v' <= length pl)
      (fun n kf vf k v b k' v' _ => longest v' <= Nat.max (longest v) (length b))
      (fun n m b m' _ => longest (VMessage m') <= Nat.max (longest (VMessage m)) (pred (length b)))).
    - intros n f v w x pl Hh Hs. destruct (scalar_longest _ _ _ _ Hs). lia.
    - intros n f i m m' body pl Hk D R IH. apply delimited_longer in D. cbn [own_length]. lia.
    - intros n f i m m' body e Hk R IH K. rewrite app_length. cbn [own_length]. lia.
    - intros n f vs w xs pls pl Hl Hp F D. split; [|cbn; lia]. apply longest_list. intros x Hx. apply in_app_iff in Hx. destruct Hx as [Hx|Hx].
      + pose proof (proj1 (longest_list vs _) (le_n _) x Hx). lia.
      + clear D. induction F as [|a b l l' H F IH]; [destruct Hx|]. destruct Hx as [<-|Hx]; [|auto]. destruct (scalar_longest _ _ _ _ H). lia.
    - intros n f vs w x pl Hl Hn R IH. rewrite kind_default_longest in IH. split; [|cbn; lia]. apply longest_list. intros y Hy. apply in_app_iff in Hy.
      destruct Hy as [Hy|[<-|[]]]; [|lia]. pose proof (proj1 (longest_list vs _) (le_n _) y Hy). lia.
    - intros n f i kvs w kf vf k0 k v body pl He Hm Hi Hkf Hvf Hk0 D R IH. split; [|cbn; lia].
      unfold entry_value in Hvf. assert (Hvf' : find_desc t i MAP_VALUE_NUMBER = Some vf) by (unfold find_desc; now rewrite Hvf).
      rewrite (default_longest _ _ _ _ Ht Hvf') in IH. apply delimited_longer in D. apply longest_map. intros x Hx. apply in_insert in Hx.
      destruct Hx as [->|Hx]; [lia|]. pose proof (proj1 (longest_map kvs _) (le_n _) x Hx). lia.
    - intros; lia.
    - intros n kf vf k v kb w pl rest k1 k' v' K Hh Hs R IH. rewrite !app_length. lia.
    - intros n kf vf k v kb w pl rest v1 k' v' K R1 [IH1 _] R IH. rewrite !app_length. lia.
    - intros n kf vf k v kb u pl rest k' v' K N1 N2 S R IH. rewrite !app_length. lia.
    - intros n m. lia.
    - intros n m kb w pl rest f v m' K Hf R [IH1 IH2] R2 IH. rewrite !app_length. pose proof (key_nonempty _ _ _ K) as Kn.
      pose proof (get_longest _ _ _ _ Ht Hf) as G.
      pose proof (longest_set m f v (Nat.max (longest (VMessage m)) (length pl)) ltac:(lia) ltac:(lia)). lia.
    - intros n m kb u pl rest fs m' K Hf R A R2 IH. rewrite !app_length. pose proof (key_nonempty _ _ _ K) as Kn.
      pose proof (proj1 raw_longest _ _ _ R) as Ru.
      pose proof (longest_unknown_add m _ u fs (Nat.max (longest (VMessage m)) (length pl)) ltac:(lia) ltac:(lia) A). lia.
  Qed.
End Reads.
