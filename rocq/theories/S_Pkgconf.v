(** What a generated pkg-config file must name, and what its variables mean. *)
From Verif Require Import Base M_Path S_Path M_Pkgconf.
Local Arguments B _ : simpl never.

(** the word that links a library of this name *)
Inductive links_as : bytes -> bytes -> Prop :=
| as_is : forall r, links_as ("-"%char :: r) ("-"%char :: r)
| without_lib : forall n, links_as (B "lib" ++ n) (B "-l" ++ n)
| plain : forall n, (forall r, n <> "-"%char :: r) -> (forall r, n <> B "lib" ++ r) ->
    links_as n (B "-l" ++ n).

(** a file is linked by its name (property C06) without what follows the last dot *)
Inductive file_links_as : bytes -> bytes -> Prop :=
| with_ending : forall p stem ending w, path_basename p = Some (stem ++ "."%char :: ending) ->
    ~ In "."%char ending -> links_as stem w -> file_links_as p w
| without_ending : forall p b w, path_basename p = Some b -> ~ In "."%char b ->
    links_as b w -> file_links_as p w.

(** what a library can bring to the file: a word to link with, a required file, a library that is
    wholly part of another, that something of the project itself is linked with, and a word to
    compile with *)
Inductive item :=
| ILib (v : vis) (w : bytes)
| IReq (v : vis) (r : bytes)
| IWhole (w : bytes)
| IOwn (v : vis)
| IFlag (w : bytes).

Definition can_be_linked (ty : ttype) (installed : bool) : Prop := ty = Shared \/ installed = true.

(** [brings v whole l i]: [l], which is needed publicly or privately, brings [i] *)
Inductive brings : vis -> bool -> lib -> item -> Prop :=
| b_string : forall v wh s w, links_as s w -> brings v wh (LString s) (ILib v w)
| b_file : forall v wh k i p w, file_links_as p w -> brings v wh (LFile k i p) (ILib v w)
| b_file_own : forall v wh k p, brings v wh (LFile k true p) (IOwn v)
| b_custom : forall v wh k p w, (forall r, p <> r ++ B ".a") -> file_links_as p w ->
    brings v wh (LCustom k p) (ILib v w)
| b_custom_own : forall v wh k p, (forall r, p <> r ++ B ".a") -> brings v wh (LCustom k p) (IOwn v)
| b_pc : forall v wh ty ins r n ds lw lh, brings v wh (LTarget ty ins (Some r) n ds lw lh) (IReq v r)
| b_target : forall v ty ins n ds lw lh w, can_be_linked ty ins -> links_as n w ->
    brings v false (LTarget ty ins None n ds lw lh) (ILib v w)
| b_target_own : forall v ty ins n ds lw lh, can_be_linked ty ins ->
    brings v false (LTarget ty ins None n ds lw lh) (IOwn v)
| b_target_whole : forall v ty ins n ds lw lh w, links_as n w ->
    brings v true (LTarget ty ins None n ds lw lh) (IWhole w)
| b_target_deps : forall v wh ty ins n ds lw lh d i, In d ds -> brings Priv false d i ->
    brings v wh (LTarget ty ins None n ds lw lh) i
| b_static_links : forall v wh ins n ds lw lh d i, In d lw -> brings Pub false d i ->
    brings v wh (LTarget Static ins None n ds lw lh) i
| b_static_wholes : forall v wh ins n ds lw lh d i, In d lh -> brings Pub true d i ->
    brings v wh (LTarget Static ins None n ds lw lh) i
| b_shared_links : forall v wh ins n ds lw lh d i, In d lw -> brings Priv false d i ->
    brings v wh (LTarget Shared ins None n ds lw lh) i
| b_shared_wholes : forall v wh ins n ds lw lh d i, In d lh -> brings Priv true d i ->
    brings v wh (LTarget Shared ins None n ds lw lh) i
| b_declared_links : forall v wh args lw lh ds d i, In d lw -> brings v false d i ->
    brings v wh (LDeclared true args lw lh ds) i
| b_declared_wholes : forall v wh args lw lh ds d i, In d lh -> brings v true d i ->
    brings v wh (LDeclared true args lw lh ds) i
| b_declared_deps : forall v wh args lw lh ds d i, In d ds -> brings Priv false d i ->
    brings v wh (LDeclared true args lw lh ds) i
| b_declared_args : forall v wh args lw lh ds w, In w args ->
    brings v wh (LDeclared true args lw lh ds) (IFlag w)
| b_package : forall v wh n, brings v wh (LPackage true n) (IReq v n)
| b_threads : forall v wh, brings v wh (LThreads true) (ILib Priv (B "-pthread"))
| b_external : forall v wh fs f i, In f fs -> brings v false f i -> brings v wh (LExternal true fs) i.

(** what is given to generate() brings [i] *)
Inductive call_brings (c : call) : item -> Prop :=
| c_main : forall l i, g_main c = Some l -> brings Pub false l i -> call_brings c i
| c_libs : forall l i, In l (g_libs c) -> brings Pub false l i -> call_brings c i
| c_private : forall l i, In l (g_libs_private c) -> brings Priv false l i -> call_brings c i.

(** what is given as requires *)
Inductive names_file : lib -> bytes -> Prop :=
| n_string : forall s, names_file (LString s) s
| n_target : forall ty ins r n ds lw lh, names_file (LTarget ty ins (Some r) n ds lw lh) r
| n_package : forall n, names_file (LPackage true n) n.

(** the words by which the compiler finds the directory [d] below the include directory, which
    [.] is itself *)
Inductive includes : bytes -> bytes -> Prop :=
| inc_here : includes (B ".") (B "-I${includedir}")
| inc_below : forall d w, d <> [] -> d <> B "." -> is_abs d = false -> is_abs w = false ->
    comps w = B "-I${includedir}" :: comps d -> includes d w.

(** ** Variables, as pkg-config reads them: in order, with references to those before *)
Fixpoint expand (fuel : nat) (env : list (bytes * bytes)) (s : bytes) : option bytes :=
  match fuel with
  | 0 => None
  | S fuel =>
      match s with
      | [] => Some []
      | "$"%char :: "{"%char :: s =>
          let '(x, r) := break_at "}"%char s in
          match find (fun '(k, _) => beqb k x) env, expand fuel env (tl r) with
          | Some (_, v), Some t => Some (v ++ t)
          | _, _ => None
          end
      | c :: s => option_map (cons c) (expand fuel env s)
      end
  end.

(** the value of a text, if all variables that it refers to are there *)
Definition value (env : list (bytes * bytes)) (s : bytes) : option bytes := expand (S (length s)) env s.

Fixpoint read_vars (env decls : list (bytes * bytes)) : option (list (bytes * bytes)) :=
  match decls with
  | [] => Some env
  | (k, s) :: decls => match value env s with
                       | Some v => read_vars ((k, v) :: env) decls
                       | None => None
                       end
  end.

(** characters that mean themselves *)
Definition simple (s : bytes) : Prop :=
  ~ In "$"%char s /\ ~ In " "%char s /\ ~ In NL s.

(** the directories of an installation *)
Definition directories : list bytes :=
  [B "prefix"; B "bindir"; B "datadir"; B "includedir"; B "infodir"; B "libdir"; B "libexecdir";
   B "localedir"; B "localstatedir"; B "mandir"; B "sbindir"; B "sharedstatedir"; B "sysconfdir"].

(** variables are given as [k=v], where the name ends at the first [=], or in a dictionary *)
Inductive gives : vars -> bytes -> bytes -> Prop :=
| in_list : forall l k v, In (k ++ "="%char :: v) l -> ~ In "="%char k -> gives (VList l) k v
| in_dict : forall l k v, In (k, v) l -> gives (VDict l) k v.

Definition has_var (c : call) (k v : bytes) : Prop := gives (g_vars c) k v \/ gives (g_unescaped c) k v.

(** the path of a directory; all but the prefix lie below the prefix *)
Definition dir_path (opt : bytes -> bytes) (d : bytes) : bytes :=
  if beqb d (B "prefix") then opt d else opt (B "prefix") ++ B "/" ++ opt d.
