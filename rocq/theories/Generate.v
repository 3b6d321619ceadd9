(** Generated code: what prost-reflect-build asks prost-build to put on the types
    it generates, and what the derive macro makes of it. *)
From Coq Require Import String.
From Verif Require Import Base Value Descr Proto Build.
From Coq Require Import List.
Import ListNotations.
Local Open Scope list_scope.
Local Open Scope N_scope.

(** ** Attributes *)

(** the value in [key = value]: a string literal, another literal, nothing at
    all, or other tokens (or no [= value]).  Simplification: an expression or a
    name that holds a quote or backslash is not escaped by the builder
    (prost-reflect-build/src/lib.rs:154-174) and would end the literal early; here
    a literal is its content. *)
Inductive given := GStr (s : str) | GLit | GNothing | GOther.
Definition k_pool : str := s2b "descriptor_pool".
Definition k_bytes : str := s2b "file_descriptor_set_bytes".
Definition k_name : str := s2b "message_name".

(** an attribute of a type: [#[derive(::prost_reflect::ReflectMessage)]],
    [#[prost_reflect(key = value, ...)]], or any other *)
Inductive attribute := Derive | Reflect (l : list (str * given)) | Unrelated (text : str).

(** ** prost-build (external, 0.14.2 according to Cargo.lock) *)

(** the attributes a configuration has for paths, in the order they were added
    (Config::type_attribute) *)
Definition config := list (str * attribute).

(** [path] is what follows some dot of [fq] *)
Fixpoint after_dot (path fq : str) : bool :=
  match fq with
  | [] => false
  | c :: r => ((c =? 46) && bytes_eqb path r) || after_dot path r
  end.
(** [path], not empty, is what precedes some dot of [fq] *)
Fixpoint before_dot (path fq : str) : bool :=
  match path, fq with
  | a :: nil, b :: c :: _ => (a =? b) && (c =? 46)
  | a :: path', b :: fq' => (a =? b) && before_dot path' fq'
  | _, _ => false
  end.
(** how prost-build matches a path with the full path of a type, which starts
    with a dot: paths with a leading dot match it and what is inside, other paths
    match the end of it; a dot matches all (documentation of Config::btree_map) *)
Definition path_matches (path fq : str) : bool :=
  bytes_eqb path fq || after_dot path fq || before_dot path fq || bytes_eqb path [46].
(** the attributes put on the type with the full path [fq] *)
Definition attributes_of (c : config) (fq : str) : list attribute :=
  map snd (filter (fun e => path_matches (fst e) fq) c).

(** ** prost-reflect-build *)

(** Builder (prost-reflect-build/src/lib.rs:46-51), without the path of the set *)
Record builder := Builder { b_pool : option str; b_bytes : option str }.
Definition new_builder : builder := Builder None None.
(** descriptor_pool, file_descriptor_set_bytes (lib.rs:99-121) *)
Definition set_pool (e : str) (b : builder) : builder := Builder (Some e) (b_bytes b).
Definition set_bytes (e : str) (b : builder) : builder := Builder (b_pool b) (Some e).

(** how configure ends *)
Inductive configured := Done (c : config) | Failed (c : config) | Panicked.

(** the attribute that says where the descriptors are (lib.rs:154-164) *)
Definition pool_attribute (b : builder) : option attribute :=
  match b_pool b, b_bytes b with
  | Some e, _ => Some (Reflect [(k_pool, GStr e)])
  | None, Some e => Some (Reflect [(k_bytes, GStr e)])
  | None, None => None
  end.
(** what is added for one message (lib.rs:166-175) *)
Definition for_message (pool : attribute) (full : str) : config :=
  [(full, Derive); (full, Reflect [(k_name, GStr full)]); (full, pool)].

(** configure (lib.rs:141-178).  [set] is the descriptor set that protoc wrote,
    as files, or None if compiling the protos or reading the set failed. *)
Definition configure (X : externs) (fuel : nat) (b : builder) (set : option (list file)) (c : config) : configured :=
  match set with
  | None => Failed c
  | Some fs =>
      match build_files X fuel empty_pool fs with
      | Built p =>
          match pool_attribute b with
          | Some a => Done (c ++ flat_map (fun m => for_message a (id_full (m_id m))) (p_messages p))
          | None => Failed c
          end
      | _ => Panicked
      end
  end.

(** ** prost-reflect-derive *)

(** what kind of type the macro is applied to *)
Inductive shape := AStruct | AnEnum | AUnion.
(** where the generated code takes the pool from *)
Inductive source := FromPool (expr : str) | FromBytes (expr : str).
(** what the macro expands to: nothing, an implementation of ReflectMessage whose
    descriptor() looks up the name in the pool, or a compile error *)
Inductive expansion := NoCode | Implement (s : source) (name : given) | CompileError.

(** Args (prost-reflect-derive/src/lib.rs:23-28), without the span *)
Record args := Args { a_name : option given; a_pool : option str; a_bytes : option str }.

(** parsing an Option<LitStr> and an Option<Lit> (syn): None if the next token is
    no such literal; a token left over is an error of parse_nested_meta *)
Definition lit_str (g : given) : option (option str) :=
  match g with GStr s => Some (Some s) | GNothing => Some None | GLit | GOther => None end.
Definition lit_any (g : given) : option (option given) :=
  match g with GStr _ | GLit => Some (Some g) | GNothing => Some None | GOther => None end.

(** the closure of Args::parse (lib.rs:84-100) *)
Definition parse_arg (a : args) (kv : str * given) : option args :=
  let (k, g) := kv in
  if bytes_eqb k k_pool then option_map (fun o => Args (a_name a) o (a_bytes a)) (lit_str g)
  else if bytes_eqb k k_bytes then option_map (fun o => Args (a_name a) (a_pool a) o) (lit_str g)
  else if bytes_eqb k k_name then option_map (fun o => Args o (a_pool a) (a_bytes a)) (lit_any g)
  else None.
Fixpoint parse_all (l : list (str * given)) (a : args) : option args :=
  match l with
  | [] => Some a
  | kv :: r => match parse_arg a kv with Some a' => parse_all r a' | None => None end
  end.
(** the arguments of all prost_reflect attributes, in order (lib.rs:60-63) *)
Definition reflect_attrs (l : list attribute) : list (list (str * given)) :=
  flat_map (fun a => match a with Reflect kv => [kv] | _ => [] end) l.
(** Args::parse (lib.rs:59-104) *)
Definition parse_args (l : list attribute) : option args :=
  match reflect_attrs l with
  | [] => None
  | ls => parse_all (concat ls) (Args None None None)
  end.

(** Args::descriptor_pool (lib.rs:106-124); [parses e]: is [e] an expression
    (syn::parse_str)? *)
Definition args_source (parses : str -> bool) (a : args) : option source :=
  match a_pool a, a_bytes a with
  | Some e, _ => if parses e then Some (FromPool e) else None
  | None, Some e => if parses e then Some (FromBytes e) else None
  | None, None => None
  end.

(** reflect_message_impl (lib.rs:30-52) *)
Definition expand (parses : str -> bool) (s : shape) (l : list attribute) : expansion :=
  match s with
  | AnEnum | AUnion => NoCode
  | AStruct =>
      match parse_args l with
      | None => CompileError
      | Some a =>
          match args_source parses a, a_name a with
          | Some src, Some n => Implement src n
          | _, _ => CompileError
          end
      end
  end.
(** the macro runs once for each time it is derived, and sees all attributes *)
Definition expansions (parses : str -> bool) (s : shape) (l : list attribute) : list expansion :=
  flat_map (fun a => match a with Derive => [expand parses s l] | _ => [] end) l.

(** descriptor() of the generated code (lib.rs:45-49): the pool, by then, looked
    up by name; None is the panic of expect *)
Definition descriptor_of (pool : pool) (name : str) : option nat := get_message_by_name pool name.
