(** A specification of what file descriptors declare, independent of how a pool
    is built from them: which items, at which path (as in SourceCodeInfo),
    in which scope. *)
From Verif Require Import Base Proto.

Inductive item :=
| IMessage (m : dproto) | IField (f : fproto) | IOneof (name : str)
| IEnum (e : eproto) | IValue (v : str * Z)
| IService (s : sproto) | IMethod (m : mproto) | IExt (f : fproto).
Definition item_name (it : item) : str :=
  match it with
  | IMessage m => dp_name m | IField f => fp_name f | IOneof n => n
  | IEnum e => ep_name e | IValue v => fst v
  | IService s => sp_name s | IMethod m => mp_name m | IExt f => fp_name f
  end.

(** [scope.name], or just [name] in the empty scope *)
Definition dotted (scope name : str) : str :=
  match scope with [] => name | _ => scope ++ [46] ++ name end.

Definition pos (j : nat) : Z := Z.of_nat j.

(** the message [m] is declared in [f] at [path], in the scope [scope] *)
Inductive message_at (f : file) : list Z -> str -> dproto -> Prop :=
| ma_top j m : nth_error (fl_messages f) j = Some m -> message_at f [4%Z; pos j] (fl_package f) m
| ma_nested path scope m j n :
    message_at f path scope m -> nth_error (dp_nested m) j = Some n ->
    message_at f (path ++ [3%Z; pos j]) (dotted scope (dp_name m)) n.
Inductive enum_at (f : file) : list Z -> str -> eproto -> Prop :=
| ea_top j e : nth_error (fl_enums f) j = Some e -> enum_at f [5%Z; pos j] (fl_package f) e
| ea_nested path scope m j e :
    message_at f path scope m -> nth_error (dp_enums m) j = Some e ->
    enum_at f (path ++ [4%Z; pos j]) (dotted scope (dp_name m)) e.

(** the item is declared in [f] at the path, in the scope *)
Inductive declares (f : file) : list Z -> str -> item -> Prop :=
| de_message path scope m : message_at f path scope m -> declares f path scope (IMessage m)
| de_field path scope m j x :
    message_at f path scope m -> nth_error (dp_fields m) j = Some x ->
    declares f (path ++ [2%Z; pos j]) (dotted scope (dp_name m)) (IField x)
| de_oneof path scope m j x :
    message_at f path scope m -> nth_error (dp_oneofs m) j = Some x ->
    declares f (path ++ [8%Z; pos j]) (dotted scope (dp_name m)) (IOneof x)
| de_ext path scope m j x :
    message_at f path scope m -> nth_error (dp_exts m) j = Some x ->
    declares f (path ++ [6%Z; pos j]) (dotted scope (dp_name m)) (IExt x)
| de_ext_top j x :
    nth_error (fl_exts f) j = Some x -> declares f [7%Z; pos j] (fl_package f) (IExt x)
| de_enum path scope e : enum_at f path scope e -> declares f path scope (IEnum e)
| de_value path scope e j x :       (* a value is a sibling of its enum *)
    enum_at f path scope e -> nth_error (ep_values e) j = Some x ->
    declares f (path ++ [2%Z; pos j]) scope (IValue x)
| de_service j s :
    nth_error (fl_services f) j = Some s -> declares f [6%Z; pos j] (fl_package f) (IService s)
| de_method j s k x :
    nth_error (fl_services f) j = Some s -> nth_error (sp_methods s) k = Some x ->
    declares f ([6%Z; pos j] ++ [2%Z; pos k]) (dotted (fl_package f) (sp_name s)) (IMethod x).

(** an item with the full name [n] *)
Definition declares_name (f : file) (path : list Z) (n : str) (it : item) : Prop :=
  exists scope, declares f path scope it /\ n = dotted scope (item_name it).

(** [n] is the package of [f] or a prefix of it that ends before a dot *)
Definition package_prefix (f : file) (n : str) : Prop :=
  fl_package f <> [] /\ (fl_package f = n \/ exists r, fl_package f = n ++ [46] ++ r).
