(** What merging does to the unknown fields (for C06). *)
From Verif Require Import Base BaseProofs Wire WireProofs LoopProofs Unknown UnknownProofs Value Descr
  Fields Codec DescrOk DescrProofs FieldsProofs MergeProofs ExtendProofs RestrictProofs RecordProofs MergeRules.
Open Scope N_scope.

(** the unknown fields with number [n] *)
Definition with_number (n : N) (us : list ufield) : list ufield :=
  filter (fun u => uf_number u =? n) us.

(** The unknown records among [cs]: those whose number is neither a field nor
    an extension of message type [d]. *)
Definition unknown_records (t : tables) (d : nat) (ctx : nat) (cs : list bytes) : list ufield :=
  flat_map (fun c =>
    match decode_key c with
    | Ok (n, _, _) =>
        match find_desc t d n, uf_decode ctx c with
        | None, Ok (u, _) => [u]
        | _, _ => []
        end
    | _ => []
    end) cs.

Definition unk_at (n : N) (fs : fieldset) : list ufield :=
  match bt_get n fs with Some (SUnk us) => us | _ => [] end.

Lemma filter_all {A} (p : A -> bool) l : (forall x, In x l -> p x = true) -> filter p l = l.
Proof.
  induction l as [|a l IH]; cbn; intros H; [reflexivity|].
  rewrite (H a) by auto. rewrite IH; auto.
Qed.
Lemma filter_none {A} (p : A -> bool) l : (forall x, In x l -> p x = false) -> filter p l = [].
Proof.
  induction l as [|a l IH]; cbn; intros H; [reflexivity|].
  rewrite (H a) by auto. apply IH; auto.
Qed.
Lemma filter_app' {A} (p : A -> bool) l1 l2 : filter p (l1 ++ l2) = filter p l1 ++ filter p l2.
Proof. apply filter_app. Qed.

Lemma unknown_by_number fs n :
  bt_sorted fs ->
  (forall k us u, bt_get k fs = Some (SUnk us) -> In u us -> uf_number u = k) ->
  with_number n (fs_iter_unknown fs) = unk_at n fs.
Proof.
  unfold with_number, unk_at. induction fs as [|[k s] fs IH]; intros Hs Hu; [reflexivity|].
  cbn [fs_iter_unknown flat_map snd]. rewrite filter_app'.
  destruct Hs as [Hlt0 Hs'].
  assert (Hlt : forall k' s', bt_get k' fs = Some s' -> k < k').
  { intros k' s' E. apply bt_get_In in E. rewrite Forall_forall in Hlt0. apply (Hlt0 _ E). }
  assert (IH' := IH Hs').
  assert (Hk : forall k' us u, bt_get k' fs = Some (SUnk us) -> In u us -> uf_number u = k').
  { intros k' us u E Hin. apply (Hu k' us u); [|exact Hin].
    cbn [bt_get]. pose proof (Hlt _ _ E). destruct (k' =? k) eqn:Ek; [lia|exact E]. }
  specialize (IH' Hk). change (flat_map _ fs) with (fs_iter_unknown fs). rewrite IH'.
  cbn [bt_get]. destruct (n =? k) eqn:En.
  - assert (n = k) by lia. subst n.
    assert (E : bt_get k fs = None).
    { destruct (bt_get k fs) eqn:E; [|reflexivity]. pose proof (Hlt _ _ E). lia. }
    rewrite E, app_nil_r. destruct s; try reflexivity.
    apply filter_all. intros u Hin. rewrite (Hu k us u); [lia| |exact Hin].
    cbn [bt_get]. rewrite N.eqb_refl. reflexivity.
  - replace (filter _ _) with (@nil ufield); [reflexivity|]. symmetry. apply filter_none.
    destruct s; intros u Hin; try contradiction.
    rewrite (Hu k us u); [lia| |exact Hin]. cbn [bt_get]. rewrite N.eqb_refl. reflexivity.
Qed.

Section UnkMerge.
  Variable t : tables.
  Hypothesis Hwf : wf t.
  Let Ht : tables_ok t := proj1 Hwf.

  Lemma ok_unk_numbers m k us u :
    ok_msg t m = true -> bt_get k (dm_fields m) = Some (SUnk us) -> In u us -> uf_number u = k.
  Proof.
    intros Hm E Hin. apply ok_msg_iff in Hm. pose proof (mo_slots _ _ Hm _ _ E) as S.
    cbn [ok_slot snd fst] in S. destruct (find_desc t (dm_desc m) k); [discriminate|].
    rewrite !andb_true_iff in S. destruct S as [_ S]. rewrite forallb_forall in S.
    specialize (S _ Hin). apply andb_true_iff in S. destruct S as [S _]. lia.
  Qed.
  Lemma unknown_with_number m n :
    ok_msg t m = true -> with_number n (msg_unknown_fields m) = unk_at n (dm_fields m).
  Proof.
    intros Hm. apply unknown_by_number.
    - apply ok_msg_iff in Hm. apply (mo_sorted _ _ Hm).
    - intros k us u. apply ok_unk_numbers, Hm.
  Qed.

  Lemma known_not_unk m k f :
    ok_msg t m = true -> find_desc t (dm_desc m) k = Some f -> unk_at k (dm_fields m) = [].
  Proof.
    intros Hm Hf. unfold unk_at. destruct (bt_get k (dm_fields m)) as [[|v|us]|] eqn:E; try reflexivity.
    apply ok_msg_iff in Hm. pose proof (mo_slots _ _ Hm _ _ E) as S. cbn [ok_slot snd fst] in S.
    rewrite Hf in S. discriminate.
  Qed.

  Lemma sibling_known d n f k :
    find_desc t d n = Some f -> siblingb f k = true -> exists g, find_desc t d k = Some g.
  Proof.
    intros Hf Hs. apply siblingb_ok in Hs. destruct Hs as (nums & Ho & Hin & _).
    unfold find_desc in Hf. destruct (get_field t d n) as [f'|] eqn:Eg.
    - injection Hf as ->. destruct (oneof_siblings _ _ _ _ _ _ Ht Eg Ho Hin) as (g & Hg & _).
      exists g. unfold find_desc. rewrite Hg. reflexivity.
    - rewrite (get_ext_oneof _ _ _ _ Ht Hf) in Ho. discriminate.
  Qed.

  (** one record *)
  Lemma record_unknown ctx m n w p m' k :
    (ctx <= 100)%nat -> ok_msg t m = true -> tag_ok n -> bytes_ok p ->
    merge_field ctx t m n w p = DOk m' [] ->
    match find_desc t (dm_desc m) n with
    | Some _ => unk_at k (dm_fields m') = unk_at k (dm_fields m)
    | None => exists u, uf_decode_value ctx n w p = Ok (u, []) /\ uf_number u = n /\
                unk_at k (dm_fields m') = unk_at k (dm_fields m) ++ (if n =? k then [u] else [])
    end.
  Proof.
    intros Hc Hm Hn Hb H. destruct (find_desc t (dm_desc m) n) as [f|] eqn:Hf.
    - destruct (field_result t _ _ _ _ _ _ _ Hf H) as (v & Hv & _ & ->). cbn [dm_fields].
      pose proof (proj1 (ok_msg_iff _ _) Hm) as Hok.
      pose proof (find_desc_number _ _ _ _ Ht Hf) as Nf. subst n.
      destruct (assigned_put t f v (dm_fields m) (mo_sorted _ _ Hok)) as [_ Hg].
      unfold unk_at. rewrite Hg. destruct (k =? fd_number f) eqn:Ek.
      + assert (k = fd_number f) by lia. subst k. symmetry. exact (known_not_unk _ _ _ Hm Hf).
      + destruct (siblingb f k) eqn:Es; [|reflexivity].
        destruct (sibling_known _ _ _ _ Hf Es) as (g & Hg'). symmetry. exact (known_not_unk _ _ _ Hm Hg').
    - unfold merge_field, merge_msg_field in H. rewrite Hf in H.
      pose proof (uf_decode_value_good ctx n w p Hn Hb) as G.
      destruct (uf_decode_value ctx n w p) as [[u r]|e| |] eqn:Eu; try discriminate H.
      destruct G as (Hu & Hun & _).
      destruct m as [d fs]. cbn [dm_desc dm_fields] in *.
      destruct (add_unknown_ok t d fs n u (proj1 (ok_msg_iff _ _) Hm) Hf Hu Hun) as (fs' & Ea & _ & Hg).
      rewrite Ea in H. injection H as <- <-. exists u. split; [reflexivity|]. split; [exact Hun|].
      cbn [dm_fields with_fields]. unfold unk_at. rewrite Hg. destruct (k =? n) eqn:Ek.
      + assert (k = n) by lia. subst k. rewrite N.eqb_refl.
        destruct (bt_get n fs) as [[| |us]|]; reflexivity.
      + replace (n =? k) with false by lia. rewrite app_nil_r. reflexivity.
  Qed.

  Lemma runs_unknown ctx m cs m' :
    (ctx <= 100)%nat -> runs (merge_field ctx t) m cs m' -> ok_msg t m = true -> bytes_ok (concat cs) ->
    dm_desc m' = dm_desc m /\ ok_msg t m' = true /\
    (forall c n w p, In c cs -> decode_key c = Ok (n, w, p) -> find_desc t (dm_desc m) n = None ->
       exists u, uf_decode ctx c = Ok (u, []) /\ uf_number u = n) /\
    (forall k, unk_at k (dm_fields m') =
               unk_at k (dm_fields m) ++ with_number k (unknown_records t (dm_desc m) ctx cs)).
  Proof.
    intros Hc H. induction H as [m|m c n w p m1 cs m2 Hk Hs Hr IH]; intros Hm Hb.
    - split; [reflexivity|]. split; [exact Hm|]. split; [contradiction|]. intros k. cbn. rewrite app_nil_r. reflexivity.
    - cbn [concat] in Hb. apply bytes_ok_app in Hb. destruct Hb as [Hb1 Hb2].
      pose proof (suffix_ok _ _ (decode_key_suffix _ _ _ _ Hk) Hb1) as Hp.
      pose proof (decode_key_tag_ok _ _ _ _ Hk) as Hn.
      destruct (merge_field_ok t Hwf ctx _ _ _ _ _ _ Hc Hm Hn Hp Hs) as [H1 Hd].
      destruct (IH H1 Hb2) as (Hd2 & H2 & HA & HB).
      split; [congruence|]. split; [exact H2|].
      pose proof (fun k => record_unknown ctx m n w p m1 k Hc Hm Hn Hp Hs) as HR.
      split.
      + intros c0 n0 w0 p0 [<-|Hin] Hk0 Hf0.
        * rewrite Hk in Hk0. injection Hk0 as <- <- <-.
          specialize (HR 0). rewrite Hf0 in HR. destruct HR as (u & Hu & Hun & _). exists u.
          unfold uf_decode. rewrite Hk. cbn [rbind]. split; [exact Hu|exact Hun].
        * apply (HA _ _ _ _ Hin Hk0). rewrite Hd. exact Hf0.
      + intros k. rewrite HB, Hd. unfold unknown_records at 2. cbn [flat_map]. rewrite Hk.
        change (flat_map _ cs) with (unknown_records t (dm_desc m) ctx cs). specialize (HR k).
        destruct (find_desc t (dm_desc m) n) as [f|] eqn:Hf; cbn [app].
        * rewrite HR. reflexivity.
        * destruct HR as (u & Hu & Hun & ->). unfold uf_decode. rewrite Hk. cbn [rbind]. rewrite Hu. cbn [app].
          rewrite <- app_assoc. f_equal. unfold with_number. cbn [app filter]. rewrite Hun.
          destruct (n =? k); reflexivity.
  Qed.

  Lemma unknown_sorted (fs : fieldset) :
    bt_sorted fs ->
    (forall k us u, bt_get k fs = Some (SUnk us) -> In u us -> uf_number u = k) ->
    forall i j u v, (i < j)%nat -> nth_error (fs_iter_unknown fs) i = Some u ->
      nth_error (fs_iter_unknown fs) j = Some v -> uf_number u <= uf_number v.
  Proof.
    induction fs as [|[k s] fs IH]; intros Hs Hu i j u v Hij Hi Hj; [destruct i; discriminate|].
    destruct Hs as [Hlt0 Hs'].
    assert (Hlt : forall k' s', bt_get k' fs = Some s' -> k < k').
    { intros k' s' E. apply bt_get_In in E. rewrite Forall_forall in Hlt0. apply (Hlt0 _ E). }
    assert (Hk : forall k' us u, bt_get k' fs = Some (SUnk us) -> In u us -> uf_number u = k').
    { intros k' us x E Hin. apply (Hu k' us x); [|exact Hin].
      cbn [bt_get]. pose proof (Hlt _ _ E). destruct (k' =? k) eqn:Ek; [lia|exact E]. }
    cbn [fs_iter_unknown flat_map snd] in Hi, Hj. change (flat_map _ fs) with (fs_iter_unknown fs) in Hi, Hj.
    set (us := match s with SUnk us => us | _ => [] end) in *.
    assert (Hhead : forall x, In x us -> uf_number x = k).
    { intros x Hin. unfold us in Hin. destruct s as [| |us0]; try contradiction. apply (Hu k us0 x); [|exact Hin].
      cbn [bt_get]. rewrite N.eqb_refl. reflexivity. }
    assert (Htail : forall x, In x (fs_iter_unknown fs) -> k < uf_number x).
    { intros x Hin. unfold fs_iter_unknown in Hin. apply in_flat_map in Hin. destruct Hin as ([k' s'] & Hin & Hx).
      cbn [snd] in Hx. destruct s' as [| |us0]; try contradiction.
      apply bt_In_get in Hin; [|exact Hs']. rewrite (Hk _ _ _ Hin Hx). apply (Hlt _ _ Hin). }
    destruct (Nat.lt_ge_cases i (length us)) as [Li|Li], (Nat.lt_ge_cases j (length us)) as [Lj|Lj].
    - rewrite nth_error_app1 in Hi, Hj by lia. apply nth_error_In in Hi. apply nth_error_In in Hj.
      rewrite (Hhead _ Hi), (Hhead _ Hj). lia.
    - rewrite nth_error_app1 in Hi by lia. rewrite nth_error_app2 in Hj by lia.
      apply nth_error_In in Hi. apply nth_error_In in Hj.
      rewrite (Hhead _ Hi). pose proof (Htail _ Hj). lia.
    - lia.
    - rewrite nth_error_app2 in Hi, Hj by lia. apply (IH Hs' Hk (i - length us)%nat (j - length us)%nat); auto. lia.
  Qed.
End UnkMerge.
