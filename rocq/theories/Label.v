(** Where in the text of a file an error is: DescriptorError::file, line, column
    and path, and the beginning of its Debug form. *)
From Verif Require Import Base Value Descr Proto Build TextFormat.
From Coq Require Import List ZArith NArith Bool.
Import ListNotations.
Local Open Scope list_scope.

(** SourceCodeInfo.Location (prost_types), as far as it is used here: a path
    and a span of i32 *)
Record location := Loc { lo_path : list Z; lo_span : list Z }.
(** [source_code_info] of the files, by their index in the pool (Proto.v does
    not carry it) *)
Definition sources := nat -> option (list location).

(** [*l.path == *path] *)
Definition same_path (p q : list Z) : bool := if list_eq_dec Z.eq_dec p q then true else false.
(** the span of a label (error.rs:784-797): line and column of the start, and
    of the end *)
Definition label_span (src : option (list location)) (path : list Z) : option (Z * Z * Z * Z) :=
  match src with
  | None => None
  | Some ls =>
      match find (fun l => same_path (lo_path l) path) ls with
      | None => None
      | Some l =>
          match lo_span l with
          | [sl; sc; ec] => Some (sl, sc, sl, ec)
          | [sl; sc; el; ec] => Some (sl, sc, el, ec)
          | _ => None
          end
      end
  end.

(** Label (error.rs:156-166), without what the miette feature adds *)
Record label := Label { la_file : str; la_path : list Z; la_span : option (Z * Z * Z * Z) }.
(** Label::new (error.rs:776-807).  [fs] are the files of the pool and those
    being added; the ones in the pool when the label is made come first among
    them, and Build.v checks that the index is one of theirs (label_ok). *)
Definition label_new (fs : list file) (src : sources) (w : spot) : res label :=
  match nth_error fs (fst w) with
  | None => Panic
  | Some f => Ok (Label (fl_name f) (snd w) (label_span (src (fst w)) (snd w)))
  end.

(** [i as usize], of an i32 on a 64-bit machine *)
Definition as_usize (z : Z) : N := Z.to_N (z mod 18446744073709551616).

(** DescriptorError::first and DescriptorErrorKind::label (error.rs:231-233,
    309-341), the latter on an error of the model, which holds the place of
    the label it picks; [errors[0]] panics without errors *)
Definition first_label (fs : list file) (src : sources) (es : list err) : res (option label) :=
  match es with
  | [] => Panic
  | e :: _ =>
      match er_at e with
      | None => Ok None
      | Some w => let! l := label_new fs src w in Ok (Some l)
      end
  end.

Section Getters.
  Variable fs : list file.
  Variable src : sources.
  Variable es : list err.
  (** DescriptorError::file (error.rs:178-180) *)
  Definition error_file : res (option str) :=
    let! l := first_label fs src es in Ok (option_map la_file l).
  (** DescriptorError::path (error.rs:207-209) *)
  Definition error_path : res (option (list Z)) :=
    let! l := first_label fs src es in Ok (option_map la_path l).
  (** the span of the first label *)
  Definition error_span : res (option (Z * Z * Z * Z)) :=
    let! l := first_label fs src es in
    Ok (match l with Some l => la_span l | None => None end).
  (** DescriptorError::line (error.rs:186-191): [s[0] as usize] *)
  Definition error_line : res (option N) :=
    let! s := error_span in Ok (option_map (fun s => as_usize (fst (fst (fst s)))) s).
  (** DescriptorError::column (error.rs:197-202): [s[1] as usize] *)
  Definition error_column : res (option N) :=
    let! s := error_span in Ok (option_map (fun s => as_usize (snd (fst (fst s)))) s).

  (** [x + 1] on usize, with the overflow checks of a debug build *)
  Definition plus_one (x : N) : res N :=
    if (x + 1 <? 18446744073709551616)%N then Ok (x + 1)%N else Panic.
  (** Debug of DescriptorError (error.rs:247-259), before the message *)
  Definition debug_prefix : res bytes :=
    let! file := error_file in
    match file with
    | None => Ok []
    | Some name =>
        let! line := error_line in
        let! column := error_column in
        match line, column with
        | Some l, Some c =>
            let! l' := plus_one l in
            let! c' := plus_one c in
            Ok (name ++ [58%N] ++ show_N l' ++ [58%N] ++ show_N c' ++ [58; 32]%N)
        | _, _ => Ok (name ++ [58; 32]%N)
        end
    end.
End Getters.
