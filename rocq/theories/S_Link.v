(** What should reach a build target from what it uses, in terms of the declarations of the project. *)
From Verif Require Import Base S_Path M_Compile S_Compile M_Link.

(** what is passed on *)
Inductive kind :=
| Libraries (** files to link with *)
| Wholes (** static libraries all of whose objects are linked *)
| Unfound (** names of libraries that are left to the linker to find *)
| Link_args | Compile_args
| Include_dirs | Sources | Objects
| Headers (** files that are made before anything is compiled, named from the build directory *)
| Rpaths. (** directories of shared libraries *)
Definition contents (k : kind) (d : pass) : list bytes :=
  match k with
  | Libraries => d_with d | Wholes => d_whole d | Unfound => d_missing d | Link_args => d_link d | Compile_args => d_compile d
  | Include_dirs => map fst (d_incs d) | Sources => d_sources d | Objects => d_objects d | Headers => d_order d | Rpaths => d_rpath d
  end.

(** the arguments of targets and of declare_dependency *)
Definition given {A} (o : option (list A)) (x : A) : Prop := exists l, o = Some l /\ In x l.
Definition asked_with (x : decl) (i : litem) : Prop := match x with DTarget t => given (t_with t) i | DDeclare a => given (a_with a) i | _ => False end.
Definition asked_whole (x : decl) (i : litem) : Prop := match x with DTarget t => given (t_whole t) i | DDeclare a => given (a_whole a) i | _ => False end.
Definition asked_dep (x : decl) (j : nat) : Prop := match x with DTarget t => given (t_deps t) j | DDeclare a => given (a_deps a) j | _ => False end.

Section Project.
Context (root : bytes) (ds : list decl).
Definition is_decl (i : nat) (x : decl) : Prop := nth_error ds i = Some x.
(** the target that a value stands for when it is linked with *)
Definition library_of (i j : nat) (t : targ) : Prop := is_decl j (DTarget t) /\ (i = j \/ is_decl i (DBoth j)).
(** [i] is linked with the target [t], number [j] *)
Definition links (i j : nat) (t : targ) : Prop :=
  exists x n, is_decl i x /\ (asked_with x (LThing n) \/ asked_whole x (LThing n)) /\ library_of n j t.
Inductive found : nat -> Prop :=
| f_declared i a : is_decl i (DDeclare a) -> found i
| f_found i d : is_decl i (DFound d) -> found i
| f_partial i j w : is_decl i (DPartial j w) -> found j -> found i
| f_system i j s : is_decl i (DSystem j s) -> found j -> found i.
(** what partial_dependency keeps *)
Definition keeps (w : parts) (k : kind) : Prop :=
  match k with
  | Libraries | Wholes | Unfound => want_links w = true
  | Link_args => want_link w = true | Compile_args => want_compile w = true | Include_dirs => want_includes w = true | Sources => want_sources w = true
  | Objects | Headers | Rpaths => False
  end.
(** what a library passes on to what is linked with it: nothing that is compiled; only a static library passes on what it
    is to be linked with *)
Definition passes (t : btype) (k : kind) : Prop :=
  match k with
  | Libraries | Wholes | Unfound | Link_args => t = StaticLib
  | Headers | Rpaths => True
  | Compile_args | Include_dirs | Sources | Objects => False
  end.
(** the files that one element of link_with or link_whole names *)
Definition names_file (i : litem) (p : bytes) : Prop :=
  match i with
  | LFile q => p = q
  | LThing n => (exists ps, is_decl n (DCustom ps) /\ In p ps) \/ (exists j t, library_of n j t /\ t_type t <> Executable /\ p = t_path t)
  end.
Definition directory_of (p d : bytes) : Prop :=
  exists l n, comps p = l ++ [n] /\ d = render (is_abs p) l.
Inductive reaches : kind -> nat -> bytes -> Prop :=
| r_with i x l p : is_decl i x -> asked_with x l -> names_file l p -> reaches Libraries i p
| r_whole i x l p : is_decl i x -> asked_whole x l -> names_file l p -> reaches Wholes i p
| r_rpath i j t d : links i j t -> t_type t <> StaticLib -> directory_of (t_path t) d -> reaches Rpaths i d
| r_own_rpath i t d : is_decl i (DTarget t) -> In d (t_rpaths t) -> reaches Rpaths i d
| r_own_includes i t d b : is_decl i (DTarget t) -> In (d, b) (t_incs t) -> reaches Include_dirs i d
| r_library_source i t p : is_decl i (DTarget t) -> In p (t_files t) \/ reaches Sources i p -> library p -> reaches Libraries i p
| r_header i t p l : is_decl i (DTarget t) -> In p (t_files t) \/ reaches Sources i p -> a_generated root p -> comps p = comps root ++ l ->
    reaches Headers i (render false l)
| r_header_dir i t p d : is_decl i (DTarget t) -> t_implicit t = true -> In p (t_files t) \/ reaches Sources i p -> a_generated root p ->
    directory_of p d -> reaches Include_dirs i d
| r_declared_link i a x : is_decl i (DDeclare a) -> In x (a_link a) -> reaches Link_args i x
| r_declared_compile i a x : is_decl i (DDeclare a) -> In x (a_compile a) -> reaches Compile_args i x
| r_declared_includes i a d b : is_decl i (DDeclare a) -> In (d, b) (a_incs a) -> reaches Include_dirs i d
| r_declared_sources i a p : is_decl i (DDeclare a) -> In p (a_sources a) -> reaches Sources i p
| r_declared_objects i a p : is_decl i (DDeclare a) -> In p (a_objects a) -> reaches Objects i p
| r_found k i d x : is_decl i (DFound d) -> In x (contents k d) -> reaches k i x
| r_library k i j t x : links i j t -> passes (t_type t) k -> reaches k j x -> reaches k i x
| r_dependency k i y j x : is_decl i y -> asked_dep y j -> found j -> reaches k j x -> reaches k i x
| r_partial k i j w x : is_decl i (DPartial j w) -> keeps w k -> reaches k j x -> reaches k i x
| r_system k i j s x : is_decl i (DSystem j s) -> reaches k j x -> reaches k i x.
End Project.

(** a file that a source can be *)
Definition source_file (root p : bytes) : Prop := is_abs p = true /\ clean p /\ comps p <> comps root.
Record ok_project (root : bytes) (ds : list decl) : Prop := {
  op_root : is_abs root = true /\ comps root <> [];
  op_targets : forall t, In (DTarget t) ds -> is_abs (t_path t) = true /\ comps (t_path t) <> [] /\ Forall (source_file root) (t_files t);
  op_declared : forall a, In (DDeclare a) ds -> Forall (source_file root) (a_sources a);
  op_found : forall d, In (DFound d) ds -> Forall (source_file root) (d_sources d) }.

(** ** Arguments that stay together and in their order *)
Definition together (b l : list bytes) : Prop := exists before after, l = before ++ b ++ after.
(** what a value of a project uses when it is a target, or stands for when it is a dependency *)
Definition taken (v : thing) : pass := match v with VTarget m => m_internal m | VDep _ d => d | _ => nothing end.
