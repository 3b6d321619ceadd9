(** Places in files, and what writing to them does. *)
From Verif Require Import Base BaseProofs Value Descr Proto Build VisitProofs EventProofs BuildFrame BuildNames BuildQuiet BuildResolve DeclSpec DeclProofs Raw RawSpec.
From Coq Require Import List ZArith NArith Lia.
Import ListNotations.
Local Open Scope list_scope.

Definition find_file_method (f : file) (path : list Z) : option mproto :=
  match path with
  | [tag; i; t2; j] =>
      if (tag =? 6)%Z && (t2 =? 2)%Z then
        match nth_error (fl_services f) (Z.to_nat i) with Some s => nth_error (sp_methods s) (Z.to_nat j) | None => None end
      else None
  | _ => None
  end.

(** *** Reading back *)
Lemma upd_same {A} (g : A -> A) l i : nth_error (upd i g l) i = option_map g (nth_error l i).
Proof. rewrite nth_upd, Nat.eqb_refl. reflexivity. Qed.
Lemma upd_other {A} (g : A -> A) l i j : i <> j -> nth_error (upd i g l) j = nth_error l j.
Proof. intros H. rewrite nth_upd. destruct (Nat.eqb_spec i j); [contradiction|]. destruct (Nat.eqb_spec j i); [congruence|]. reflexivity. Qed.
Lemma map_upd_comm {A B} (h : A -> B) (g : A -> A) (g' : B -> B) l : (forall a, In a l -> h (g a) = g' (h a)) -> forall i, map h (upd i g l) = upd i g' (map h l).
Proof.
  induction l as [|a l IH]; intros H [|i]; cbn; [reflexivity|reflexivity| |].
  - f_equal. apply H. left. reflexivity.
  - f_equal. apply IH. intros b Hb. apply H. right. exact Hb.
Qed.

Lemma path_two (P : list Z -> Prop) : P [] -> (forall t, P [t]) -> (forall t i r, P r -> P (t :: i :: r)) -> forall l, P l.
Proof.
  intros H0 H1 H2 l. assert (P l /\ forall t, P (t :: l)) as [H _]; [|exact H].
  induction l as [|a l [IH1 IH2]]; split; auto.
Qed.

Lemma message_field_same g path : forall m, find_message_field (on_message_field g path m) path = option_map g (find_message_field m path).
Proof.
  induction path as [| |tag i rest IH] using path_two; intros m; [reflexivity|reflexivity|].
  destruct m as [n fs xs ns es er os me rv]. cbn [on_message_field].
  destruct (Z.eqb_spec tag 2) as [->|N2].
  - destruct rest; cbn [find_message_field]; [|reflexivity]. cbn [Z.eqb Pos.eqb dp_fields]. apply upd_same.
  - destruct (Z.eqb_spec tag 6) as [->|N6].
    + destruct rest; cbn [find_message_field]; [|reflexivity]. cbn [Z.eqb Pos.eqb dp_exts]. apply upd_same.
    + cbn [find_message_field]. destruct (Z.eqb_spec tag 3) as [->|N3].
      * cbn [Z.eqb Pos.eqb dp_nested find_message_field]. rewrite upd_same. destruct (nth_error ns (Z.to_nat i)); cbn [option_map]; [apply IH|reflexivity].
      * destruct (Z.eqb_spec tag 2); [contradiction|]. destruct (Z.eqb_spec tag 6); [contradiction|]. 
        cbn [find_message_field]. destruct (Z.eqb_spec tag 2); [contradiction|]. destruct (Z.eqb_spec tag 6); [contradiction|]. 
        destruct (Z.eqb_spec tag 3); [contradiction|]. reflexivity.
Qed.
Lemma file_field_same g path f : find_file_field (on_file_field g path f) path = option_map g (find_file_field f path).
Proof.
  destruct path as [|tag [|i rest]]; [reflexivity|reflexivity|]. destruct f as [nm pk ds pb wk ms es ss xs sy]. cbn [on_file_field].
  destruct (Z.eqb_spec tag 4) as [->|N4].
  - cbn [find_file_field Z.eqb Pos.eqb fl_messages]. rewrite upd_same. destruct (nth_error ms (Z.to_nat i)); cbn [option_map]; [apply message_field_same|reflexivity].
  - destruct (Z.eqb_spec tag 7) as [->|N7].
    + destruct rest; [|reflexivity]. cbn [find_file_field Z.eqb Pos.eqb fl_exts]. apply upd_same.
    + cbn [find_file_field]. destruct (Z.eqb_spec tag 4); [contradiction|]. destruct (Z.eqb_spec tag 7); [contradiction|]. reflexivity.
Qed.
Lemma file_method_same g path f : find_file_method (on_file_method g path f) path = option_map g (find_file_method f path).
Proof.
  destruct path as [|tag [|i [|t2 [|j [|z rest]]]]]; try reflexivity. destruct f as [nm pk ds pb wk ms es ss xs sy]. cbn [on_file_method find_file_method].
  destruct (Z.eqb_spec tag 6) as [->|N4]; cbn [andb].
  - destruct (Z.eqb_spec t2 2) as [->|N2]; cbn [fl_services].
    + rewrite upd_same. destruct (nth_error ss (Z.to_nat i)); cbn [option_map sp_methods]; [apply upd_same|reflexivity].
    + reflexivity.
  - reflexivity.
Qed.

Definition real (path : list Z) : Prop := Forall (fun z => (0 <= z)%Z) path.
Lemma real_two t i r t' i' r' : real (t :: i :: r) -> real (t' :: i' :: r') -> t :: i :: r <> t' :: i' :: r' -> t = t' -> Z.to_nat i = Z.to_nat i' -> r <> r'.
Proof.
  intros A B N -> E Er. apply N. inversion A as [|? ? _ A1]; subst. inversion A1; subst. inversion B as [|? ? _ B1]; subst. inversion B1; subst. f_equal. f_equal. lia.
Qed.
Lemma real_rest t i r : real (t :: i :: r) -> real r.
Proof. intros A. inversion A as [|? ? _ A1]; subst. inversion A1; subst. assumption. Qed.

Lemma message_field_other g path : forall path' m, real path -> real path' -> path <> path' ->
  find_message_field (on_message_field g path m) path' = find_message_field m path'.
Proof.
  induction path as [| |tag i rest IH] using path_two; intros path' m R R' N; [reflexivity|reflexivity|].
  destruct m as [n fs xs ns es er os me rv]. destruct path' as [|tag' [|i' rest']].
  - destruct (on_message_field _ _ _); reflexivity.
  - destruct (on_message_field _ _ _); reflexivity.
  - pose proof (real_two _ _ _ _ _ _ R R' N) as Q. cbn [on_message_field].
    destruct (Z.eqb_spec tag 2) as [->|N2]; [|destruct (Z.eqb_spec tag 6) as [->|N6]; [|destruct (Z.eqb_spec tag 3) as [->|N3]; [|reflexivity]]].
    + destruct rest; [|reflexivity]. cbn [find_message_field dp_fields dp_exts dp_nested].
      destruct (Z.eqb_spec tag' 2) as [->|]; [|reflexivity]. destruct rest'; [|reflexivity]. apply upd_other. intros E. exact (Q eq_refl E eq_refl).
    + destruct rest; [|reflexivity]. cbn [find_message_field dp_fields dp_exts dp_nested].
      destruct (Z.eqb_spec tag' 2) as [->|]; [reflexivity|]. destruct (Z.eqb_spec tag' 6) as [->|]; [|reflexivity].
      destruct rest'; [|reflexivity]. apply upd_other. intros E. exact (Q eq_refl E eq_refl).
    + cbn [find_message_field dp_fields dp_exts dp_nested].
      destruct (Z.eqb_spec tag' 2) as [->|]; [reflexivity|]. destruct (Z.eqb_spec tag' 6) as [->|]; [reflexivity|]. destruct (Z.eqb_spec tag' 3) as [->|]; [|reflexivity].
      destruct (Nat.eq_dec (Z.to_nat i) (Z.to_nat i')) as [E|E].
      * rewrite E, upd_same. destruct (nth_error ns (Z.to_nat i')); cbn [option_map]; [|reflexivity].
        apply IH; [exact (real_rest _ _ _ R)|exact (real_rest _ _ _ R')|exact (Q eq_refl E)].
      * rewrite upd_other by exact E. reflexivity.
Qed.
Lemma file_field_other g path path' f : real path -> real path' -> path <> path' ->
  find_file_field (on_file_field g path f) path' = find_file_field f path'.
Proof.
  intros R R' N. destruct path as [|tag [|i rest]]; [reflexivity|reflexivity|]. destruct path' as [|tag' [|i' rest']]; [reflexivity|reflexivity|].
  pose proof (real_two _ _ _ _ _ _ R R' N) as Q. destruct f as [nm pk ds pb wk ms es ss xs sy]. cbn [on_file_field].
  destruct (Z.eqb_spec tag 4) as [->|N4]; [|destruct (Z.eqb_spec tag 7) as [->|N7]; [|reflexivity]].
  - cbn [find_file_field fl_messages fl_exts]. destruct (Z.eqb_spec tag' 4) as [->|]; [|reflexivity].
    destruct (Nat.eq_dec (Z.to_nat i) (Z.to_nat i')) as [E|E].
    + rewrite E, upd_same. destruct (nth_error ms (Z.to_nat i')); cbn [option_map]; [|reflexivity].
      apply message_field_other; [exact (real_rest _ _ _ R)|exact (real_rest _ _ _ R')|exact (Q eq_refl E)].
    + rewrite upd_other by exact E. reflexivity.
  - destruct rest; [|reflexivity]. cbn [find_file_field fl_messages fl_exts]. destruct (Z.eqb_spec tag' 4) as [->|]; [reflexivity|].
    destruct (Z.eqb_spec tag' 7) as [->|]; [|reflexivity]. destruct rest'; [|reflexivity]. apply upd_other. intros E. exact (Q eq_refl E eq_refl).
Qed.
Lemma file_method_other g path path' f : real path -> real path' -> path <> path' ->
  find_file_method (on_file_method g path f) path' = find_file_method f path'.
Proof.
  intros R R' N. destruct path as [|tag [|i rest]]; [reflexivity|reflexivity|]. destruct f as [nm pk ds pb wk ms es ss xs sy]. cbn [on_file_method].
  destruct (Z.eqb_spec tag 6) as [->|]; [|reflexivity]. destruct rest as [|t2 [|j [|z rest]]]; try reflexivity. destruct (Z.eqb_spec t2 2) as [->|]; [|reflexivity].
  destruct path' as [|tag' [|i' [|t2' [|j' [|z' rest']]]]]; try reflexivity. cbn [find_file_method fl_services].
  pose proof (real_two _ _ _ _ _ _ R R' N) as Q.
  destruct (Z.eqb_spec tag' 6) as [->|]; cbn [andb]; [|reflexivity]. destruct (Z.eqb_spec t2' 2) as [->|]; [|reflexivity].
  destruct (Nat.eq_dec (Z.to_nat i) (Z.to_nat i')) as [E|E].
  - rewrite E, upd_same. destruct (nth_error ss (Z.to_nat i')); cbn [option_map sp_methods]; [|reflexivity].
    apply upd_other. intros E'. specialize (Q eq_refl E). apply Q. f_equal. f_equal.
    apply real_rest in R. apply real_rest in R'. inversion R as [|? ? _ R1]; subst. inversion R1; subst. inversion R' as [|? ? _ R2]; subst. inversion R2; subst. lia.
  - rewrite upd_other by exact E. reflexivity.
Qed.
Lemma field_method_apart g path path' f : find_file_method (on_file_field g path f) path' = find_file_method f path'.
Proof.
  destruct path as [|tag [|i rest]]; [reflexivity|reflexivity|]. destruct f as [nm pk ds pb wk ms es ss xs sy]. cbn [on_file_field].
  destruct (tag =? 4)%Z; [reflexivity|]. destruct (tag =? 7)%Z; [destruct rest; reflexivity|reflexivity].
Qed.
Lemma method_field_apart g path path' f : find_file_field (on_file_method g path f) path' = find_file_field f path'.
Proof.
  destruct path as [|tag [|i [|t2 [|j [|z rest]]]]]; try reflexivity; destruct f as [nm pk ds pb wk ms es ss xs sy]; cbn [on_file_method].
  - destruct (tag =? 6)%Z; reflexivity.
  - destruct (tag =? 6)%Z; reflexivity.
  - destruct (tag =? 6)%Z; [|reflexivity]. destruct (t2 =? 2)%Z; reflexivity.
  - destruct (tag =? 6)%Z; reflexivity.
Qed.

(** *** Nothing else changes *)
Lemma upd_quiet {A B} (h : A -> B) (g : A -> A) l : (forall a, h (g a) = h a) -> forall i, map h (upd i g l) = map h l.
Proof. intros H. induction l as [|a l IH]; intros [|i]; cbn; [reflexivity|reflexivity|f_equal; apply H|f_equal; apply IH]. Qed.
Lemma blank_message_field g path : (forall x, blank_field (g x) = blank_field x) -> forall m, blank_message (on_message_field g path m) = blank_message m.
Proof.
  intros H. induction path as [| |tag i rest IH] using path_two; intros m; [destruct m; reflexivity|destruct m; reflexivity|].
  destruct m as [n fs xs ns es er os me rv]. cbn [on_message_field].
  destruct (tag =? 2)%Z; [destruct rest; [|reflexivity]|destruct (tag =? 6)%Z; [destruct rest; [|reflexivity]|destruct (tag =? 3)%Z; [|reflexivity]]];
    cbn [blank_message]; f_equal; apply upd_quiet; assumption.
Qed.
Lemma blank_file_field g path f : (forall x, blank_field (g x) = blank_field x) -> blank_file (on_file_field g path f) = blank_file f.
Proof.
  intros H. destruct path as [|tag [|i rest]]; [reflexivity|reflexivity|]. destruct f as [nm pk ds pb wk ms es ss xs sy]. cbn [on_file_field].
  destruct (tag =? 4)%Z; [|destruct (tag =? 7)%Z; [destruct rest; [|reflexivity]|reflexivity]]; unfold blank_file; cbn; f_equal; apply upd_quiet; [|exact H].
  apply blank_message_field. exact H.
Qed.
Lemma blank_file_method g path f : (forall x, blank_method (g x) = blank_method x) -> blank_file (on_file_method g path f) = blank_file f.
Proof.
  intros H. destruct path as [|tag [|i rest]]; [reflexivity|reflexivity|]. destruct f as [nm pk ds pb wk ms es ss xs sy]. cbn [on_file_method].
  destruct (tag =? 6)%Z; [|reflexivity]. destruct rest as [|t2 [|j [|z rest]]]; try reflexivity. destruct (t2 =? 2)%Z; [|reflexivity].
  unfold blank_file; cbn; f_equal. apply upd_quiet. intros s. unfold blank_service. cbn. f_equal. apply upd_quiet. exact H.
Qed.

(** *** Declarations are found at their paths *)
Lemma real_app a b : real a -> real b -> real (a ++ b).
Proof. intros A B. apply Forall_app. auto. Qed.
Lemma real_pos t j : (0 <= t)%Z -> real [t; pos j].
Proof. intros H. repeat constructor; [exact H|unfold pos; lia]. Qed.
Lemma message_real f path scope m : message_at f path scope m -> real path.
Proof. induction 1; [apply real_pos; lia|apply real_app; [assumption|apply real_pos; lia]]. Qed.
Lemma enum_real f path scope m : enum_at f path scope m -> real path.
Proof. destruct 1; [apply real_pos; lia|apply real_app; [eapply message_real; eassumption|apply real_pos; lia]]. Qed.
Lemma declared_real f path scope it : declares f path scope it -> real path.
Proof.
  destruct 1; try (apply real_pos; lia); try (apply real_app; [eapply message_real; eassumption|apply real_pos; lia]).
  - eapply message_real; eassumption.
  - eapply enum_real; eassumption.
  - apply real_app; [eapply enum_real; eassumption|apply real_pos; lia].
  - apply real_app; apply real_pos; lia.
Qed.
Lemma pos_nat j : Z.to_nat (pos j) = j.
Proof. unfold pos. lia. Qed.
Lemma message_placed f path scope m : message_at f path scope m -> placed f path m.
Proof.
  induction 1; [apply placed_top; assumption|]. eapply placed_nested; eassumption.
Qed.
Lemma field_found f path scope x : declares f path scope (IField x) -> find_file_field f path = Some x.
Proof.
  intros D. inversion D as [|? ? m j ? M E| | | | | | |]; subst. apply message_placed in M. destruct M as (_ & _ & _ & M).
  rewrite M. cbn [find_message_field Z.eqb Pos.eqb]. rewrite pos_nat. exact E.
Qed.
Lemma ext_found f path scope x : declares f path scope (IExt x) -> find_file_field f path = Some x.
Proof.
  intros D. inversion D as [| | |? ? m j ? M E|j ? E| | | |]; subst.
  - apply message_placed in M. destruct M as (_ & _ & _ & M). rewrite M. cbn [find_message_field Z.eqb Pos.eqb]. rewrite pos_nat. exact E.
  - cbn [find_file_field Z.eqb Pos.eqb]. rewrite pos_nat. exact E.
Qed.
Lemma method_found f path scope x : declares f path scope (IMethod x) -> find_file_method f path = Some x.
Proof.
  intros D. inversion D as [| | | | | | | |j s k ? E F]; subst. cbn [app find_file_method Z.eqb Pos.eqb andb]. rewrite !pos_nat, E. exact F.
Qed.
