(** Copy on write behaves as if every handle had a pool of its own. *)
From Verif Require Import Base Value Descr Proto Build BuildFrame BuildResolve BuildInv Shared.

Lemma nth_ext_eq {A} (l l' : list A) : (forall i, nth_error l i = nth_error l' i) -> l = l'.
Proof.
  revert l'. induction l as [|a l IH]; intros [|a' l'] H; auto.
  - specialize (H O). discriminate.
  - specialize (H O). discriminate.
  - pose proof (H O) as H0. cbn in H0. apply Some_inj in H0. subst. f_equal. apply IH. intros i. exact (H (S i)).
Qed.

Lemma deref_map s h : deref s h = match h with None => None | Some c => nth_error (map c_pool (st_heap s)) c end.
Proof. destruct h; [|reflexivity]. cbn. rewrite nth_error_map. reflexivity. Qed.
Lemma shown_nth s h : nth_error (shown s) h = option_map (deref s) (nth_error (st_hs s) h).
Proof. unfold shown. apply nth_error_map. Qed.

Definition here (c : nat) (h : option nat) : nat := match h with Some d => if (d =? c)%nat then 1 else 0 | None => 0 end.
Lemma handles_cons c h hs : handles c (h :: hs) = (here c h + handles c hs)%nat.
Proof. unfold handles, here. cbn. destruct h as [d|]; [destruct (d =? c)%nat|]; reflexivity. Qed.
Lemma handles_app c a b : handles c (a ++ b) = (handles c a + handles c b)%nat.
Proof. unfold handles. rewrite filter_app, app_length. reflexivity. Qed.
Lemma handles_set c x : forall hs h y, nth_error hs h = Some y ->
  (handles c (set_nth h x hs) + here c y = handles c hs + here c x)%nat.
Proof.
  induction hs as [|a hs IH]; intros [|h] y H; try discriminate.
  - cbn in H. apply Some_inj in H. subst. unfold set_nth. cbn [upd]. rewrite !handles_cons. lia.
  - cbn in H. specialize (IH _ _ H). unfold set_nth in *. cbn [upd]. rewrite !handles_cons. lia.
Qed.
Lemma handles_pos c : forall hs h, nth_error hs h = Some (Some c) -> (1 <= handles c hs)%nat.
Proof.
  induction hs as [|a hs IH]; intros [|h] H; try discriminate; cbn in H; rewrite handles_cons.
  - apply Some_inj in H. subst. cbn. rewrite Nat.eqb_refl. lia.
  - specialize (IH _ H). lia.
Qed.
Lemma handles_one c : forall hs h h', handles c hs = 1%nat ->
  nth_error hs h = Some (Some c) -> nth_error hs h' = Some (Some c) -> h = h'.
Proof.
  induction hs as [|a hs IH]; intros [|h] [|h'] E H H'; try discriminate; cbn in H, H'; rewrite handles_cons in E; auto.
  - apply Some_inj in H. subst. cbn in E. rewrite Nat.eqb_refl in E. pose proof (handles_pos _ _ _ H'). lia.
  - apply Some_inj in H'. subst. cbn in E. rewrite Nat.eqb_refl in E. pose proof (handles_pos _ _ _ H). lia.
  - f_equal. pose proof (handles_pos _ _ _ H). apply IH; auto. lia.
Qed.
Lemma handles_none c hs : (forall h, nth_error hs h <> Some (Some c)) -> handles c hs = 0%nat.
Proof.
  induction hs as [|a hs IH]; intros H; [reflexivity|]. rewrite handles_cons, IH.
  - specialize (H O). cbn in H. destruct a as [d|]; [|reflexivity]. cbn. destruct (Nat.eqb_spec d c); [congruence|reflexivity].
  - intros h. exact (H (S h)).
Qed.
Lemma here_eq c d : here c (Some d) = if (d =? c)%nat then 1%nat else 0%nat.
Proof. reflexivity. Qed.

Lemma deref_same heap heap' hs hs' h :
  (forall c, h = Some c -> (c < length heap)%nat -> nth_error (map c_pool heap') c = nth_error (map c_pool heap) c) ->
  (forall c, h = Some c -> (c < length heap)%nat) ->
  deref (Store heap' hs') h = deref (Store heap hs) h.
Proof. intros H B. rewrite !deref_map. destruct h as [c|]; [|reflexivity]. cbn [st_heap]. apply H; auto. Qed.

Lemma handle_bound s i h c : counted s -> nth_error (st_hs s) i = Some h -> h = Some c -> (c < length (st_heap s))%nat.
Proof. intros [_ B] H ->. eapply B. exact H. Qed.

Lemma upd_bump d c heap : map c_pool (upd c (bump d) heap) = map c_pool heap.
Proof. apply map_upd. reflexivity. Qed.

(** make_mut: every handle shows what it showed, and the handle's cell is its own *)
Lemma make_mut_spec h c p0 n s s1 c1 :
  counted s -> nth_error (st_hs s) h = Some (Some c) -> nth_error (st_heap s) c = Some (Cell n p0) ->
  make_mut h c s = (s1, c1) ->
  counted s1 /\ nth_error (st_hs s1) h = Some (Some c1) /\ nth_error (st_heap s1) c1 = Some (Cell 1 p0) /\ shown s1 = shown s.
Proof.
  intros [C B] Hh Hc M. unfold make_mut in M. rewrite Hc in M.
  pose proof (C _ _ Hc) as En. cbn in En. pose proof (handles_pos _ _ _ Hh) as Hp.
  destruct (Nat.eq_dec n 1) as [-> |Hn].
  { inversion M; subst. split; [split; assumption|]. auto. }
  assert ((Store (upd c (bump pred) (st_heap s) ++ [Cell 1 p0]) (set_nth h (Some (length (st_heap s))) (st_hs s)), length (st_heap s)) = (s1, c1)) as E.
  { destruct n as [|[|n]]; [lia|lia|exact M]. }
  clear M. inversion E; subst; clear E. cbn [st_heap st_hs]. pose proof (B _ _ Hh) as Hlt.
  assert (nth_error (set_nth h (Some (length (st_heap s))) (st_hs s)) h = Some (Some (length (st_heap s)))) as Hnew.
  { unfold set_nth. rewrite nth_upd, Nat.eqb_refl, Hh. reflexivity. }
  assert (nth_error (upd c (bump pred) (st_heap s) ++ [Cell 1 p0]) (length (st_heap s)) = Some (Cell 1 p0)) as Hcell.
  { rewrite nth_error_app2 by (rewrite upd_length; lia). rewrite upd_length, Nat.sub_diag. reflexivity. }
  split; [split|].
  - cbn [st_heap st_hs]. intros c' x Hx. pose proof (handles_set c' (Some (length (st_heap s))) _ _ _ Hh) as Q.
    rewrite !here_eq in Q.
    assert (c' < length (st_heap s) \/ c' = length (st_heap s))%nat as [L | ->].
    { assert (c' < length (upd c (bump pred) (st_heap s) ++ [Cell 1 p0]))%nat by (apply nth_error_Some; congruence).
      rewrite app_length, upd_length in H. cbn in H. lia. }
    + rewrite nth_error_app1, nth_upd in Hx by (rewrite upd_length; lia).
      destruct (Nat.eqb_spec c' c) as [-> |Hne].
      * rewrite Nat.eqb_refl in Hx. rewrite Hc in Hx. cbn in Hx. apply Some_inj in Hx. subst x. cbn.
        rewrite Nat.eqb_refl in Q. destruct (Nat.eqb_spec (length (st_heap s)) c); lia.
      * destruct (Nat.eqb_spec c c'); [congruence|]. rewrite (C _ _ Hx).
        destruct (Nat.eqb_spec (length (st_heap s)) c'); lia.
    + rewrite Hcell in Hx. apply Some_inj in Hx. subst x. cbn. rewrite Nat.eqb_refl in Q.
      assert (handles (length (st_heap s)) (st_hs s) = 0%nat) by (apply handles_none; intros h' Hh'; apply B in Hh'; lia).
      destruct (Nat.eqb_spec c (length (st_heap s))); lia.
  - cbn [st_heap st_hs]. intros h' c' H'. rewrite app_length, upd_length. cbn. unfold set_nth in H'. rewrite nth_upd in H'.
    destruct (h =? h')%nat.
    + destruct (nth_error (st_hs s) h'); cbn in H'; [|discriminate]. inversion H'. lia.
    + apply B in H'. lia.
  - split; [exact Hnew|]. split; [exact Hcell|]. apply nth_ext_eq. intros i. rewrite !shown_nth. cbn [st_hs].
    unfold set_nth. rewrite nth_upd. destruct (Nat.eqb_spec h i) as [-> |Hne].
    + rewrite Hh. cbn [option_map]. f_equal. rewrite !deref_map. cbn [st_heap]. rewrite nth_error_map, Hcell, nth_error_map, Hc. reflexivity.
    + destruct (nth_error (st_hs s) i) as [x|] eqn:Hx; [|reflexivity]. cbn [option_map]. f_equal.
      destruct s as [heap hs]. cbn [st_heap st_hs] in *. apply deref_same.
      * intros c' -> L. rewrite map_app, upd_bump, nth_error_app1; [reflexivity|rewrite map_length; exact L].
      * intros c' ->. eapply B. exact Hx.
Qed.

Lemma build_nothing X fuel p fs :
  filter (fun f => match assoc_s (fl_name f) (p_file_names p) with Some _ => false | None => true end) fs = [] ->
  build_files X fuel p fs = Built p.
Proof. intros H. unfold build_files. rewrite H. reflexivity. Qed.

Lemma set_same {A} : forall (l : list A) i a, nth_error l i = Some a -> set_nth i a l = l.
Proof.
  unfold set_nth. induction l as [|b l IH]; intros [|i] a H; cbn in *; try discriminate.
  - congruence.
  - f_equal. auto.
Qed.

Theorem step_refines X o s : counted s ->
  match op_step X o s with
  | Ok s' => counted s' /\ own_step X o (shown s) = Ok (shown s')
  | Err _ => False
  | Panic => own_step X o (shown s) = Panic
  | Fuel => own_step X o (shown s) = Fuel
  end.
Proof.
  intros Cs. pose proof Cs as [C B]. destruct o as [|h|h|h fuel fs]; cbn [op_step own_step].
  - split; [split|].
    + cbn [st_heap st_hs]. intros c x Hx. rewrite handles_app, handles_cons. cbn.
      assert (c < length (st_heap s) \/ c = length (st_heap s))%nat as [L | ->].
      { assert (c < length (st_heap s ++ [Cell 1 empty_pool]))%nat by (apply nth_error_Some; congruence).
        rewrite app_length in H. cbn in H. lia. }
      * rewrite nth_error_app1 in Hx by exact L. rewrite (C _ _ Hx). destruct (Nat.eqb_spec (length (st_heap s)) c); lia.
      * rewrite nth_error_app2, Nat.sub_diag in Hx by lia. cbn in Hx. apply Some_inj in Hx. subst x. cbn. rewrite Nat.eqb_refl.
        assert (handles (length (st_heap s)) (st_hs s) = 0%nat) as -> by (apply handles_none; intros h' Hh'; apply B in Hh'; lia).
        reflexivity.
    + cbn [st_heap st_hs]. intros h c H. rewrite app_length. cbn.
      destruct (Nat.lt_ge_cases h (length (st_hs s))) as [L|L].
      * rewrite nth_error_app1 in H by exact L. apply B in H. lia.
      * rewrite nth_error_app2 in H by exact L. destruct (h - length (st_hs s))%nat as [|k]; cbn in H; [inversion H; lia|destruct k; discriminate].
    + f_equal. unfold shown. cbn [st_hs]. rewrite map_app. f_equal.
      * apply map_ext_in. intros x Hx. apply In_nth_error in Hx. destruct Hx as [i Hx]. destruct s as [heap hs]. cbn [st_heap st_hs] in *.
        symmetry. apply deref_same; intros c ->; [intros L; rewrite map_app, nth_error_app1; [reflexivity|rewrite map_length; exact L]|].
        eapply B. exact Hx.
      * cbn. rewrite nth_error_app2, Nat.sub_diag by lia. reflexivity.
  - destruct (nth_error (st_hs s) h) as [[c|]|] eqn:Hh; rewrite shown_nth, Hh; cbn [option_map]; try (split; [exact Cs|reflexivity]).
    pose proof (B _ _ Hh) as L. destruct (nth_error (st_heap s) c) as [[n p]|] eqn:Hc; [|apply nth_error_None in Hc; lia].
    cbn [deref]. rewrite Hc. cbn [option_map c_pool]. split; [split|].
    + cbn [st_heap st_hs]. intros c' x Hx. rewrite handles_app, handles_cons. rewrite nth_upd in Hx.
      destruct (Nat.eqb_spec c c') as [-> |Hne].
      * rewrite Hc in Hx. cbn in Hx. apply Some_inj in Hx. subst x. pose proof (C _ _ Hc) as En. cbn in *. rewrite Nat.eqb_refl. lia.
      * pose proof (C _ _ Hx) as En. cbn. destruct (Nat.eqb_spec c c'); [congruence|]. lia.
    + cbn [st_heap st_hs]. intros h' c' H. rewrite upd_length. destruct (Nat.lt_ge_cases h' (length (st_hs s))) as [L'|L'].
      * rewrite nth_error_app1 in H by exact L'. apply B in H. lia.
      * rewrite nth_error_app2 in H by exact L'. destruct (h' - length (st_hs s))%nat as [|k]; cbn in H; [inversion H; lia|destruct k; discriminate].
    + f_equal. unfold shown. cbn [st_hs]. rewrite map_app.
      assert (forall x, deref {| st_heap := upd c (bump S) (st_heap s); st_hs := st_hs s ++ [Some c] |} x = deref s x) as D.
      { intros x. rewrite !deref_map. cbn [st_heap]. rewrite upd_bump. reflexivity. }
      f_equal; [symmetry; apply map_ext; exact D|]. cbn [map]. rewrite D. cbn. rewrite Hc. reflexivity.
  - destruct (nth_error (st_hs s) h) as [[c|]|] eqn:Hh; rewrite shown_nth, Hh; cbn [option_map]; try (split; [exact Cs|reflexivity]).
    pose proof (B _ _ Hh) as L. destruct (nth_error (st_heap s) c) as [[n p]|] eqn:Hc; [|apply nth_error_None in Hc; lia].
    cbn [deref]. rewrite Hc. cbn [option_map c_pool]. split; [split|].
    + cbn [st_heap st_hs]. intros c' x Hx. pose proof (handles_set c' None _ _ _ Hh) as Q. cbn [here] in Q. rewrite nth_upd in Hx.
      destruct (Nat.eqb_spec c c') as [-> |Hne].
      * rewrite Hc in Hx. cbn in Hx. apply Some_inj in Hx. subst x. pose proof (C _ _ Hc) as En. cbn in *. lia.
      * pose proof (C _ _ Hx) as En. lia.
    + cbn [st_heap st_hs]. intros h' c' H. rewrite upd_length. unfold set_nth in H. rewrite nth_upd in H.
      destruct (h =? h')%nat; [destruct (nth_error (st_hs s) h'); discriminate|]. eapply B. exact H.
    + f_equal. apply nth_ext_eq. intros i. rewrite shown_nth. cbn [st_hs]. unfold set_nth. rewrite !nth_upd, shown_nth.
      destruct (h =? i)%nat; [destruct (nth_error (st_hs s) i); reflexivity|].
      destruct (nth_error (st_hs s) i) as [x|]; [|reflexivity]. cbn [option_map]. f_equal. rewrite !deref_map. cbn [st_heap]. rewrite upd_bump. reflexivity.
  - unfold add_op. destruct (nth_error (st_hs s) h) as [[c|]|] eqn:Hh; rewrite shown_nth, Hh; cbn [option_map]; try (split; [exact Cs|reflexivity]).
    pose proof (B _ _ Hh) as L. destruct (nth_error (st_heap s) c) as [[n p]|] eqn:Hc; [|apply nth_error_None in Hc; lia].
    cbn [deref]. rewrite Hc. cbn [option_map c_pool].
    destruct (filter _ fs) as [|f0 fs0] eqn:Hf.
    { rewrite (build_nothing _ _ _ _ Hf). split; [exact Cs|]. f_equal. apply set_same. rewrite shown_nth, Hh. cbn. rewrite Hc. reflexivity. }
    destruct (make_mut h c s) as [s1 c1] eqn:M.
    destruct (make_mut_spec _ _ _ _ _ _ _ Cs Hh Hc M) as [[C1 B1] [Hh1 [Hc1 Sh]]].
    unfold get_mut. rewrite Hc1. cbn [rbind].
    assert (forall p', counted (Store (upd c1 (fun x => Cell (c_count x) p') (st_heap s1)) (st_hs s1)) /\
        set_nth h (Some p') (shown s) = shown (Store (upd c1 (fun x => Cell (c_count x) p') (st_heap s1)) (st_hs s1))) as K.
    { intros p'. split; [split|].
      - cbn [st_heap st_hs]. intros c' x Hx. rewrite nth_upd in Hx. destruct (c1 =? c')%nat; [|eauto].
        destruct (nth_error (st_heap s1) c') as [y|] eqn:Hy; [|discriminate]. cbn in Hx. apply Some_inj in Hx. subst x. cbn. eauto.
      - cbn [st_heap st_hs]. intros h' c' H. rewrite upd_length. eauto.
      - rewrite <- Sh. apply nth_ext_eq. intros i. unfold set_nth. rewrite nth_upd, !shown_nth. cbn [st_hs].
        destruct (Nat.eqb_spec h i) as [<- |Hne].
        + rewrite Hh1. cbn. rewrite nth_upd, Nat.eqb_refl, Hc1. reflexivity.
        + destruct (nth_error (st_hs s1) i) as [x|] eqn:Hx; [|reflexivity]. cbn [option_map]. f_equal.
          destruct x as [d|]; [|reflexivity]. cbn. rewrite nth_upd. destruct (Nat.eqb_spec c1 d) as [<- |Hd]; [|reflexivity].
          exfalso. apply Hne. pose proof (C1 _ _ Hc1) as E1. cbn in E1. eapply handles_one; eauto. }
    destruct (build_files X fuel p fs) as [p'|p' es| |]; try reflexivity.
    + destruct (K p') as [K1 K2]. split; [exact K1|congruence].
    + destruct (K p') as [K1 K2]. split; [exact K1|congruence].
Qed.

Theorem run_refines X os : forall s, counted s ->
  match op_run X os s with
  | Ok s' => counted s' /\ own_run X os (shown s) = Ok (shown s')
  | Err _ => False
  | Panic => own_run X os (shown s) = Panic
  | Fuel => own_run X os (shown s) = Fuel
  end.
Proof.
  induction os as [|o os IH]; intros s C; cbn [op_run own_run]; [auto|].
  pose proof (step_refines X o s C) as H. destruct (op_step X o s) as [s'| | |]; cbn [rbind]; [|contradiction|rewrite H; reflexivity|rewrite H; reflexivity].
  destruct H as [C' ->]. cbn [rbind]. apply IH. exact C'.
Qed.
