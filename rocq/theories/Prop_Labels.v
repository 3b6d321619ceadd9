(** Where in the text the error of a rejected call is said to be (C71). *)
From Coq Require Import String.
From Verif Require Import Base BaseProofs Value Descr Proto Build BuildFrame BuildNames BuildQuiet BuildResolve BuildInv BuildSafe TextFormat JsonWritten JsonWrittenScalars DeclSpec DeclProofs PoolFacts PoolMembers ResolveSpec
  Prop_Pool Prop_Resolve ExampleFiles ValidSpec AcceptVisible Prop_Accepts FaultSpec FaultNames FaultUses Prop_Faults OptResolve OptSpec OptPass Prop_CustomOptions Label.
From Coq Require Import List ZArith NArith Lia.
Import ListNotations.
Local Open Scope list_scope.

(** ** Specification *)

(** The first location with that path starts at line [l], column [c] (both from
    zero): its span is start line, start column, then the end, as one or two
    numbers. *)
Definition starts (ls : list location) (path : list Z) (l c : Z) : Prop :=
  exists before x after e, ls = before ++ x :: after /\ (forall y, In y before -> lo_path y <> path) /\ lo_path x = path /\
    lo_span x = l :: c :: e /\ (length e = 1 \/ length e = 2)%nat.
(** what a getter returns for a number of a span *)
Definition read_as (z : Z) (n : N) : Prop := Z.of_N n = (z mod 2 ^ 64)%Z.
Lemma read_same z n : read_as z n -> (0 <= z < 2 ^ 64)%Z -> Z.of_N n = z.
Proof. unfold read_as. intros -> H. apply Z.mod_small. exact H. Qed.

(** what is known of the text at a place: line and column, or neither *)
Definition located (src : option (list location)) (path : list Z) (line column : option N) : Prop :=
  (exists ls l c ln cn, src = Some ls /\ starts ls path l c /\ line = Some ln /\ read_as l ln /\ column = Some cn /\ read_as c cn) \/
  (line = None /\ column = None /\ forall ls l c, src = Some ls -> ~ starts ls path l c).

(** ** Proofs *)

Lemma same_path_spec p q : same_path p q = true <-> p = q.
Proof. unfold same_path. destruct (list_eq_dec Z.eq_dec p q); split; congruence. Qed.
Lemma find_split {A} (g : A -> bool) l x : find g l = Some x -> exists u v, l = u ++ x :: v /\ (forall y, In y u -> g y = false) /\ g x = true.
Proof.
  induction l as [|a l IH]; cbn [find]; [discriminate|]. destruct (g a) eqn:E.
  - intros H. apply Some_inj in H. subst a. exists [], l. split; [reflexivity|]. split; [intros y []|exact E].
  - intros H. destruct (IH H) as (u & v & -> & Hu & Hx). exists (a :: u), v. split; [reflexivity|]. split; [|exact Hx].
    intros y [<-|Hy]; [exact E|apply Hu; exact Hy].
Qed.
Lemma find_at {A} (g : A -> bool) u x v : (forall y, In y u -> g y = false) -> g x = true -> find g (u ++ x :: v) = Some x.
Proof.
  induction u as [|a u IH]; intros Hu Hx; cbn [app find]; [rewrite Hx; reflexivity|].
  rewrite (Hu a (or_introl eq_refl)). apply IH; [intros y Hy; apply Hu; right; exact Hy|exact Hx].
Qed.
Lemma starts_find ls path l c : starts ls path l c <->
  exists x e, find (fun l => same_path (lo_path l) path) ls = Some x /\ lo_span x = l :: c :: e /\ (length e = 1 \/ length e = 2)%nat.
Proof.
  split.
  - intros (u & x & v & e & -> & Hu & Hx & Hs & He). exists x, e. split; [|auto]. apply find_at; [|apply same_path_spec; exact Hx].
    intros y Hy. specialize (Hu y Hy). destruct (same_path (lo_path y) path) eqn:E; [|reflexivity]. apply same_path_spec in E. contradiction.
  - intros (x & e & F & Hs & He). apply find_split in F. destruct F as (u & v & -> & Hu & Hx). exists u, x, v, e. split; [reflexivity|].
    split; [|split; [apply same_path_spec; exact Hx|auto]]. intros y Hy E. apply same_path_spec in E. rewrite (Hu y Hy) in E. discriminate E.
Qed.
Lemma span_spec src path :
  (exists ls l c el ec, src = Some ls /\ starts ls path l c /\ label_span src path = Some (l, c, el, ec)) \/
  (label_span src path = None /\ forall ls l c, src = Some ls -> ~ starts ls path l c).
Proof.
  destruct src as [ls|]; [|right; split; [reflexivity|discriminate]]. cbn [label_span].
  destruct (find (fun l => same_path (lo_path l) path) ls) as [x|] eqn:F.
  2:{ right. split; [reflexivity|]. intros ls' l c E S. apply Some_inj in E. subst ls'. apply starts_find in S. destruct S as (x & e & G & _).
      rewrite F in G. discriminate G. }
  assert (forall l c e, lo_span x = l :: c :: e -> (length e = 1 \/ length e = 2)%nat -> starts ls path l c) as Y.
  { intros l c e Hs He. apply starts_find. exists x, e. auto. }
  assert (label_span (Some ls) path = None -> (forall l c e, lo_span x = l :: c :: e -> ~ (length e = 1 \/ length e = 2)%nat) ->
          label_span (Some ls) path = None /\ forall ls' l c, Some ls = Some ls' -> ~ starts ls' path l c) as Z0.
  { intros N K. split; [exact N|]. intros ls' l c E S. apply Some_inj in E. subst ls'. apply starts_find in S. destruct S as (y & e & G & Hs & He).
    rewrite F in G. apply Some_inj in G. subst y. exact (K l c e Hs He). }
  cbn [label_span] in Z0. rewrite F in Z0.
  destruct (lo_span x) as [|a [|b0 [|c0 [|d [|e r]]]]] eqn:E.
  - right. apply Z0; [reflexivity|]. intros l c e H. discriminate H.
  - right. apply Z0; [reflexivity|]. intros l c e H. discriminate H.
  - right. apply Z0; [reflexivity|]. intros l c e H. injection H as <- <- <-. cbn. lia.
  - left. exists ls, a, b0, a, c0. split; [reflexivity|]. split; [|reflexivity]. exact (Y a b0 [c0] eq_refl (or_introl eq_refl)).
  - left. exists ls, a, b0, c0, d. split; [reflexivity|]. split; [|reflexivity]. exact (Y a b0 [c0; d] eq_refl (or_intror eq_refl)).
  - right. apply Z0; [reflexivity|]. intros l c e' H. injection H as <- <- <-. cbn. lia.
Qed.
Lemma as_usize_read z : read_as z (as_usize z).
Proof. unfold read_as, as_usize. change (2 ^ 64)%Z with 18446744073709551616%Z. rewrite Z2N.id; [reflexivity|]. apply Z.mod_pos_bound. lia. Qed.

(** The getters on a list of errors whose first has a place. *)
Lemma getters_at fs src e rest k path f : er_at e = Some (k, path) -> nth_error fs k = Some f ->
  error_file fs src (e :: rest) = Ok (Some (fl_name f)) /\ error_path fs src (e :: rest) = Ok (Some path) /\
  exists line column, error_line fs src (e :: rest) = Ok line /\ error_column fs src (e :: rest) = Ok column /\
    located (src k) path line column.
Proof.
  intros E N. assert (first_label fs src (e :: rest) = Ok (Some (Label (fl_name f) path (label_span (src k) path)))) as L.
  { unfold first_label, label_new. rewrite E. cbn [fst snd]. rewrite N. reflexivity. }
  unfold error_line, error_column, error_span, error_file, error_path. rewrite L. cbn [rbind option_map la_file la_path la_span].
  split; [reflexivity|]. split; [reflexivity|]. do 2 eexists. split; [reflexivity|]. split; [reflexivity|].
  destruct (span_spec (src k) path) as [(ls & l & c & el & ec & Hs & S & ->)|[-> K]].
  - left. exists ls, l, c, (as_usize l), (as_usize c). cbn [option_map fst snd].
    split; [exact Hs|]. split; [exact S|]. split; [reflexivity|]. split; [apply as_usize_read|]. split; [reflexivity|apply as_usize_read].
  - right. split; [reflexivity|]. split; [reflexivity|exact K].
Qed.

(** ** C71 *)

(** What file(), path(), line() and column() say of the errors [es]: those of
    the first.  If it has a place, they are the name of the file it is in, one of
    the new ones, its path there, and the start of the first location that the
    file's source info gives for this very path, if any.  Otherwise they say
    nothing. *)
Definition says (fs : list file) (first : nat) (src : sources) (es : list err) : Prop :=
  exists e rest, es = e :: rest /\
    match er_at e with
    | Some (k, path) => exists f, (first <= k)%nat /\ nth_error fs k = Some f /\
        error_file fs src es = Ok (Some (fl_name f)) /\ error_path fs src es = Ok (Some path) /\
        exists line column, error_line fs src es = Ok line /\ error_column fs src es = Ok column /\ located (src k) path line column
    | None => error_file fs src es = Ok None /\ error_path fs src es = Ok None /\ error_line fs src es = Ok None /\ error_column fs src es = Ok None
    end.
Lemma says_points fs first src es nf ff : es <> [] -> Forall (points_at fs first nf ff) es -> says fs first src es.
Proof.
  intros N F. destruct es as [|e rest]; [contradiction|]. exists e, rest. split; [reflexivity|]. inversion F as [|? ? P _]; subst.
  unfold points_at in P. destruct (er_at e) as [[k path]|] eqn:E.
  - destruct P as (f & A & B & _). exists f. split; [exact A|]. split; [exact B|]. apply getters_at; assumption.
  - unfold error_line, error_column, error_span, error_file, error_path, first_label. rewrite E. auto.
Qed.

(** For every rejected call: the first error is at fault where C68 says, and
    the getters give the place in the text of that element.  (The errors of the
    options are described by C71_option_errors.) *)
Theorem C71_located X fuel p files p' es src : search_ok X -> reachable X p ->
  short_publics (pool_files p ++ unknown p files) ->
  build_files X fuel p files = Rejected p' es ->
  point_nearly_right X (sees (pool_files p ++ unknown p files)) (pool_files p) (unknown p files) es /\
  says (pool_files p ++ unknown p files) (length (pool_files p)) src es.
Proof.
  intros SO R S H. destruct (C68_errors_point_at_faults_partial X fuel p files p' es SO R S H) as [N Q]. split; [exact Q|].
  destruct Q as [Q|(_ & names & _ & Q)]; exact (says_points _ _ src es _ _ N Q).
Qed.
Print Assumptions C71_located.

(** The same for all public imports. *)
Theorem C71_located_as_collected X fuel p files p' es src : search_ok X -> reachable X p ->
  build_files X fuel p files = Rejected p' es ->
  says (pool_files p ++ unknown p files) (length (pool_files p)) src es.
Proof.
  intros SO R H. destruct (C68_errors_point_as_collected_partial X fuel p files p' es SO R H) as [N Q].
  destruct Q as [Q|(_ & names & _ & Q)]; exact (says_points _ _ src es _ _ N Q).
Qed.
Print Assumptions C71_located_as_collected.

(** The errors without a place are of three kinds. *)
Theorem C71_without_place X fuel p files p' e es : search_ok X -> reachable X p ->
  build_files X fuel p files = Rejected p' (e :: es) -> er_at e = None ->
  (exists n, er_what e = ErrDupFile n) \/ er_what e = ErrImportIndex \/ er_what e = ErrOneofIndex \/ er_what e = ErrOptions.
Proof.
  intros SO R H N. destruct (C68_errors_point_as_collected_partial X fuel p files p' _ SO R H) as [_ Q].
  destruct Q as [Q|(_ & names & _ & Q)]; inversion Q as [|? ? P _]; subst; unfold points_at in P; rewrite N in P; inversion P; eauto.
Qed.
Print Assumptions C71_without_place.

(** ** The Debug form *)

(** It begins with the file, and the line and column counted from one, in
    decimal, if they are known.  The only numbers it cannot print are -1. *)
Theorem C71_debug fs first src es : says fs first src es ->
  exists file line column, error_file fs src es = Ok file /\ error_line fs src es = Ok line /\ error_column fs src es = Ok column /\
  match file, line, column with
  | None, _, _ => debug_prefix fs src es = Ok []
  | Some name, Some l, Some c =>
      ((l + 1 < 2 ^ 64 /\ c + 1 < 2 ^ 64)%N -> exists sl sc, decimal (l + 1) sl /\ decimal (c + 1) sc /\
         debug_prefix fs src es = Ok (name ++ [58%N] ++ sl ++ [58%N] ++ sc ++ [58; 32]%N)) /\
      (~ (l + 1 < 2 ^ 64 /\ c + 1 < 2 ^ 64)%N -> debug_prefix fs src es = Panic)
  | Some name, _, _ => debug_prefix fs src es = Ok (name ++ [58; 32]%N)
  end.
Proof.
  change (2 ^ 64)%N with 18446744073709551616%N.
  intros (e & rest & Ees & S). destruct (er_at e) as [[k path]|].
  - destruct S as (f & _ & _ & Ef & _ & line & column & El & Ec & L). exists (Some (fl_name f)), line, column.
    split; [exact Ef|]. split; [exact El|]. split; [exact Ec|]. unfold debug_prefix. rewrite Ef, El, Ec. cbn [rbind].
    destruct L as [(ls & l & c & ln & cn & _ & _ & -> & _ & -> & _)|(-> & -> & _)]; [|reflexivity].
    split.
    + intros [A B]. exists (show_N (ln + 1)), (show_N (cn + 1)). split; [apply decimal_show|]. split; [apply decimal_show|].
      unfold plus_one. apply N.ltb_lt in A, B. rewrite A, B. reflexivity.
    + intros A. unfold plus_one. destruct (ln + 1 <? _)%N eqn:E1; [|reflexivity]. destruct (cn + 1 <? _)%N eqn:E2; [|reflexivity].
      exfalso. apply A. apply N.ltb_lt in E1, E2. split; assumption.
  - destruct S as (Ef & _ & El & Ec). exists None, None, None. split; [exact Ef|]. split; [exact El|]. split; [exact Ec|].
    unfold debug_prefix. rewrite Ef. reflexivity.
Qed.
Print Assumptions C71_debug.
Theorem C71_unprintable z n : (- 2 ^ 31 <= z < 2 ^ 31)%Z -> read_as z n -> ((n + 1 < 2 ^ 64)%N <-> z <> (-1)%Z).
Proof.
  intros B H. unfold read_as in H. assert (Z.of_N n = if (z <? 0)%Z then z + 2 ^ 64 else z)%Z as E.
  { rewrite H. destruct (z <? 0)%Z eqn:Q.
    - apply Z.ltb_lt in Q. symmetry. apply Z.mod_unique with (q := (-1)%Z); lia.
    - apply Z.ltb_ge in Q. apply Z.mod_small. lia. }
  change (2 ^ 64)%N with 18446744073709551616%N. destruct (z <? 0)%Z eqn:Q; [apply Z.ltb_lt in Q|apply Z.ltb_ge in Q]; lia.
Qed.
Print Assumptions C71_unprintable.

(** ** Not vacuous *)

(** the file of C68_faulty; the import that is not found is written in line 2
    (the third), columns 7 to 19; the message and its file come before it *)
Definition faulty_source : sources := fun k =>
  match k with
  | 1%nat => Some [Loc [] [0; 0; 9; 1]; Loc [3] [2; 0; 20]; Loc [3; 0] [2; 7; 19]; Loc [3; 0] [5; 5; 6]; Loc [4; 0] [3; 0; 9; 1]]%Z
  | _ => None
  end.
Example C71_faulty : exists p' es, build_files demo_externs 10 pool_ab [file_faulty] = Rejected p' es /\
  error_file (pool_files pool_ab ++ [file_faulty]) faulty_source es = Ok (Some (b "w.proto")) /\
  error_path (pool_files pool_ab ++ [file_faulty]) faulty_source es = Ok (Some [3; 0]%Z) /\
  error_line (pool_files pool_ab ++ [file_faulty]) faulty_source es = Ok (Some 2%N) /\
  error_column (pool_files pool_ab ++ [file_faulty]) faulty_source es = Ok (Some 7%N) /\
  debug_prefix (pool_files pool_ab ++ [file_faulty]) faulty_source es = Ok (b "w.proto:3:8: ") /\
  says (pool_files pool_ab ++ unknown pool_ab [file_faulty]) (length (pool_files pool_ab)) faulty_source es.
Proof.
  destruct C68_faulty as (p' & es & F & Ees & _). exists p', es. split; [exact F|].
  pose proof (C71_located_as_collected demo_externs 10 pool_ab [file_faulty] p' es faulty_source demo_search reach_ab F) as S.
  split; [rewrite Ees; vm_compute; reflexivity|]. split; [rewrite Ees; vm_compute; reflexivity|].
  split; [rewrite Ees; vm_compute; reflexivity|]. split; [rewrite Ees; vm_compute; reflexivity|].
  split; [rewrite Ees; vm_compute; reflexivity|exact S].
Qed.

(** Source info is not checked: with a column of -1 the getter says 2^64 - 1,
    and printing the error overflows, so in a build with overflow checks it
    panics. *)
Theorem C71_refuted_negative_column : exists p' es src, build_files demo_externs 10 pool_ab [file_faulty] = Rejected p' es /\
  error_column (pool_files pool_ab ++ [file_faulty]) src es = Ok (Some (2 ^ 64 - 1)%N) /\
  debug_prefix (pool_files pool_ab ++ [file_faulty]) src es = Panic.
Proof.
  destruct C68_faulty as (p' & es & F & Ees & _).
  exists p', es, (fun k => match k with 1%nat => Some [Loc [3; 0] [2; -1; 19]]%Z | _ => None end). split; [exact F|].
  split; rewrite Ees; vm_compute; reflexivity.
Qed.
Print Assumptions C71_refuted_negative_column.

(** ** Options *)

(** the errors of the options, as errors of a call *)
Definition option_errors (os : list (oerr * option spot)) : list err := map (fun x => ErrAt ErrOptions (snd x)) os.

(** If options are at fault, the getters say where the first option stands that
    has no meaning after those before it ([misfit], OptSpec.v), as written and so
    as the source info has it; or nothing, if the bytes of the options are no
    message of their type. *)
Theorem C71_option_errors g p typed o fs raw all src os : ready g p -> raw_ok raw -> (of_file o + length fs <= length (p_files p))%nat ->
  (forall k, nth_error all (of_file o + k) = nth_error fs k) ->
  resolve_options g typed p o fs raw = Ok (inl os) ->
  (exists e rest file path ty s encoded us, os = e :: rest /\ stands (of_file o) fs file path ty s /\ raw file path = Some (encoded, us) /\
     misfit g p file path ty s encoded us (snd e)) /\
  says all (of_file o) src (option_errors os).
Proof.
  intros R Hr Hl Ha H. pose proof (pass_spec g p typed o fs raw R Hr Hl) as S. rewrite H in S.
  destruct S as (e & rest & file & path & ty & s & encoded & us & -> & S & E & M & _). split.
  { exists e, rest, file, path, ty, s, encoded, us. auto. }
  exists (ErrAt ErrOptions (snd e)), (option_errors rest). split; [reflexivity|]. cbn [er_at]. cbn [option_errors map]. fold (option_errors rest).
  destruct e as [x w]. cbn [snd] in *. destruct M as [own d Em Nd|own d m0 m1 before u after paths Em D -> I N].
  - unfold error_line, error_column, error_span, error_file, error_path, first_label. cbn [er_at]. auto.
  - destruct S as (k & f & Hk & -> & _). exists f. split; [lia|]. assert (nth_error all (of_file o + k) = Some f) as Hf by (rewrite Ha; exact Hk).
    split; [exact Hf|]. apply getters_at; [reflexivity|exact Hf].
Qed.
Print Assumptions C71_option_errors.

(** the same calls, with options accepted as they are *)
Definition as_written (X : externs) : externs := Externs (x_f32 X) (x_f64 X) (x_checked X) (x_search X) (fun _ _ => Ok true).
Lemma Inv_as_written X p : Inv X p -> Inv (as_written X) p.
Proof.
  intros []. constructor; try assumption. intros path full f parent i m H.
  destruct (iv_msgs _ _ _ _ _ _ H) as (mi & A & B & C & D & E & (names0 & O & F) & G). exists mi.
  split; [exact A|]. split; [exact B|]. split; [exact C|]. split; [exact D|]. split; [exact E|]. split; [|exact G].
  exists names0. split; [exact O|]. destruct F. constructor; assumption.
Qed.
Lemma options_rejected X fuel p files p' es : search_ok X -> Inv X p ->
  build_files X fuel p files = Rejected p' es -> In (nowhere ErrOptions) es ->
  es = [nowhere ErrOptions] /\ exists q, build_files (as_written X) fuel p files = Built q /\ x_options X q (dedup p files) = Ok false.
Proof.
  intros SO I H N. pose proof (Inv_as_written X p I) as I'. assert (search_ok (as_written X)) as SO' by exact SO.
  assert (dedup p files <> []) as Hd.
  { intros D. unfold build_files in H. fold (dedup p files) in H. rewrite D in H. discriminate H. }
  apply build_rejected in H. destruct H as (v & H & <- & Ne & _). pose proof (dedup_unknown p files) as Hu.
  unfold build_deduped in H. apply rbind_ok in H. destruct H as [[p1 e1] [H1 H]]. cbn [v_errs] in H. destruct e1 as [|er e1].
  2:{ exfalso. apply Ok_inj in H. subst v. pose proof (names_faults X p I _ Hu _ H1) as F. rewrite Forall_forall in F. specialize (F _ N).
      unfold points_at in F. cbn [nowhere er_at er_what] in F. inversion F. }
  apply rbind_ok in H. destruct H as [[p2 e2] [H2 H]]. cbn [v_errs v_pool] in H. destruct e2 as [|er e2].
  - apply rbind_ok in H. destruct H as [ok [Ho H]]. destruct ok; [apply Ok_inj in H; subst v; cbn in Ne; contradiction|].
    unfold push_err in H. cbn in H. apply Ok_inj in H. subst v. cbn [v_errs]. split; [reflexivity|]. exists p2. split; [|exact Ho].
    unfold build_files. fold (dedup p files). destruct (dedup p files) as [|f fs] eqn:D; [contradiction|].
    unfold build_deduped. rewrite H1. cbn [rbind v_errs].
    change (fold_res (resolve_step (as_written X) fuel)) with (fold_res (resolve_step X fuel)). rewrite H2. reflexivity.
  - exfalso. apply Ok_inj in H. subst v. set (new := dedup p files) in *.
    assert (forall k f t, nth_error (raws p ++ new) k = Some f -> gather fuel (files_only (raws p ++ new)) (fl_deps f) [k] = Ok t ->
       forall x, In x t <-> AcceptVisible.collected fuel (raws p ++ new) k x) as Hv.
    { intros k f t Hf G x. unfold AcceptVisible.collected. split; [intros Hx; eauto|]. intros (f' & t' & F1 & F2 & F3).
      rewrite Hf in F1. apply Some_inj in F1. subst f'. rewrite G in F2. apply Ok_inj in F2. subst t'. exact F3. }
    pose proof (uses_faults (as_written X) SO' p I' new Hu p1 H1 fuel _ Hv _ H2) as F. rewrite Forall_forall in F. specialize (F _ N).
    unfold Q2, points_at in F. cbn [nowhere er_at er_what] in F. inversion F as [| |q Q]. discriminate Q.
Qed.

(** A call that is rejected because of its options: nothing else is at fault
    (without interpreting options it builds a pool [q] of all the files), and the
    errors are those of the pass over the options of the new files in [q]. *)
Theorem C71_rejected_options X g typed raw fuel p files p' es : search_ok X -> reachable X p ->
  (forall q gs, x_options X q gs = options_phase g typed raw q gs) ->
  build_files X fuel p files = Rejected p' es -> In (nowhere ErrOptions) es ->
  es = [nowhere ErrOptions] /\ exists q os, build_files (as_written X) fuel p files = Built q /\
    pool_files q = pool_files p ++ unknown p files /\
    resolve_options g typed q (Off (length (pool_files p)) 0 0 0 0) (unknown p files) raw = Ok (inl os) /\
    (ready g q -> raw_ok raw -> forall src,
     (exists e rest file path ty s encoded us, os = e :: rest /\ stands (length (pool_files p)) (unknown p files) file path ty s /\
        raw file path = Some (encoded, us) /\ misfit g q file path ty s encoded us (snd e)) /\
     says (pool_files p ++ unknown p files) (length (pool_files p)) src (option_errors os)).
Proof.
  intros SO R HX H N. pose proof (reachable_Inv _ _ SO R) as I. destruct (options_rejected X fuel p files p' es SO I H N) as (E & q & B & Q).
  split; [exact E|]. pose proof (built_files (as_written X) SO fuel p files q (Inv_as_written X p I) B) as Fs.
  rewrite <- (unknown_dedup X p files I) in Fs, Q. rewrite HX in Q. unfold options_phase in Q.
  assert (length (p_files q) = (length (pool_files p) + length (unknown p files))%nat) as Ln.
  { apply (f_equal (@length _)) in Fs. rewrite app_length in Fs. unfold pool_files in Fs. rewrite !map_length in Fs. unfold pool_files. rewrite map_length. exact Fs. }
  rewrite Ln, Nat.add_sub in Q.
  destruct (resolve_options g typed q (Off (length (pool_files p)) 0 0 0 0) (unknown p files) raw) as [[os|r]| | |] eqn:Ro; try discriminate Q.
  exists q, os. split; [exact B|]. split; [exact Fs|]. split; [exact Ro|]. intros Rq Hr src.
  refine (C71_option_errors g q typed (Off (length (pool_files p)) 0 0 0 0) (unknown p files) raw (pool_files p ++ unknown p files) src os Rq Hr _ _ Ro).
  - cbn [of_file]. lia.
  - intros k. cbn [of_file]. rewrite nth_error_app2 by lia. f_equal. lia.
Qed.
Print Assumptions C71_rejected_options.

(** Not vacuous: the second option of c.M names no extension; it is written in
    line 8 (counting from one) at column 11. *)
Definition bad_options : list uoption := [o_string [ext_part "c.tag"] "a"; o_int [ext_part "nothing"] 1].
Definition bad_raw : raw_options := given 1 [4; 1; 7]%Z [24; 1]%N bad_options.
Definition bad_externs : externs := Externs (fun _ => None) (fun _ => None) true lsearch (options_phase pool_g checks_wire bad_raw).
Definition bad_source : sources := fun k =>
  match k with
  | 1%nat => Some [Loc [4; 1] [5; 0; 9; 1]; Loc [4; 1; 7] [6; 2; 30]; Loc [4; 1; 7; 999; 0] [6; 2; 30]; Loc [4; 1; 7; 999; 1] [7; 10; 25]]%Z
  | _ => None
  end.
Lemma bad_raw_ok : raw_ok bad_raw.
Proof.
  apply raw_given; [reflexivity| |].
  - repeat constructor; cbn; auto; try (vm_compute; reflexivity); apply bytes_okb_ok; vm_compute; reflexivity.
  - repeat constructor; discriminate.
Qed.
Lemma search_same X X' : x_search X = x_search X' -> search_ok X -> search_ok X'.
Proof. unfold search_ok. intros E H. rewrite <- E. exact H. Qed.
Lemma bad_search : search_ok bad_externs.
Proof. exact (search_same demo_externs bad_externs eq_refl demo_search). Qed.
Lemma bad_phase q gs : x_options bad_externs q gs = options_phase pool_g checks_wire bad_raw q gs.
Proof. reflexivity. Qed.
Lemma bad_as_written : as_written bad_externs = demo_externs.
Proof. reflexivity. Qed.
Lemma no_files : pool_files empty_pool = [].
Proof. reflexivity. Qed.
Definition rejects_with (r : outcome) : option (list err) := match r with Rejected _ es => Some es | _ => None end.
Lemma Built_inj a c : Built a = Built c -> a = c.
Proof. intros H. injection H as H. exact H. Qed.
Definition bad_files : list file := [descriptor_file; custom_file].
Lemma bad_rejected : exists p', build_files bad_externs 10 empty_pool bad_files = Rejected p' [nowhere ErrOptions].
Proof.
  assert (rejects_with (build_files bad_externs 10 empty_pool bad_files) = Some [nowhere ErrOptions]) as G by (vm_compute; reflexivity).
  destruct (build_files bad_externs 10 empty_pool bad_files) as [|p' es| |]; try discriminate G. apply Some_inj in G. subst es. exists p'. reflexivity.
Qed.
Lemma bad_unknown : unknown empty_pool bad_files = bad_files.
Proof. vm_compute. reflexivity. Qed.
Lemma bad_pass : resolve_options pool_g checks_wire pool_c (Off 0 0 0 0 0) bad_files bad_raw = Ok (inl [(OptName, Some (1%nat, [4; 1; 7; 999; 1]%Z))]).
Proof. vm_compute. reflexivity. Qed.
Lemma bad_written q : build_files (as_written bad_externs) 10 empty_pool bad_files = Built q -> q = pool_c.
Proof.
  rewrite bad_as_written. intros B. unfold bad_files in B. rewrite built_c in B. symmetry. exact (Built_inj _ _ B).
Qed.
Example C71_bad_option : exists p' os, build_files bad_externs 10 empty_pool bad_files = Rejected p' [nowhere ErrOptions] /\
  resolve_options pool_g checks_wire pool_c (Off 0 0 0 0 0) bad_files bad_raw = Ok (inl os) /\
  error_path bad_files bad_source (option_errors os) = Ok (Some [4; 1; 7; 999; 1]%Z) /\
  debug_prefix bad_files bad_source (option_errors os) = Ok (fl_name custom_file ++ b ":8:11: ") /\
  says bad_files 0 bad_source (option_errors os).
Proof.
  destruct bad_rejected as [p' F]. exists p', [(OptName, Some (1%nat, [4; 1; 7; 999; 1]%Z))]. split; [exact F|]. split; [exact bad_pass|].
  split; [vm_compute; reflexivity|]. split; [vm_compute; reflexivity|].
  destruct (C71_rejected_options bad_externs pool_g checks_wire bad_raw 10 empty_pool _ p' _ bad_search (re_empty _) bad_phase F (or_introl eq_refl))
    as (_ & q & os & B & _ & Ro & K).
  apply bad_written in B. subst q. rewrite bad_unknown, no_files in Ro, K. cbn [app length] in Ro, K. rewrite bad_pass in Ro.
  assert (forall x y : list (oerr * option spot), @Ok (list (oerr * option spot) + (raw_options * list (nat * list Z * list Z))) (inl x) = Ok (inl y) -> x = y) as Inj
    by (intros x y H; injection H as H; exact H).
  apply Inj in Ro. subst os. exact (proj2 (K ready_c bad_raw_ok bad_source)).
Qed.
