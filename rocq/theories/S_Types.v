(** What types and signatures mean. *)
From Coq Require Import NArith.
From Verif Require Import Base M_Types.

(** The kind of a value. *)
Definition kind (v : obj) : N :=
  match v with ONull => 0%N | ODisabler => 2%N | OArray _ => 9%N | ODict _ => 10%N | OOther k _ => k end.

(** The values of a type: a disabler has every type. *)
Fixpoint member (s : syntax) (v : obj) : Prop :=
  v = ODisabler \/
  match s with
  | SName k => kind v = k
  | SAny => v <> ONull
  | SExe =>
      (* str, file, external_program, python_installation, build_tgt, custom_tgt, both_libs *)
      In (kind v) [8; 5; 16; 17; 12; 13; 29]%N
  | SAnyVoid => True
  | SList s => exists l, v = OArray l /\ Forall (member s) l
  | SDict s => exists d, v = ODict d /\ Forall (fun kv => member s (snd kv)) d
  | SOr a b => member a v \/ member b v
  end.

(** Objects as they occur: there are 32 types, and arrays, dictionaries and disablers are not
    anything else. *)
Inductive wellformed : obj -> Prop :=
| wf_null : wellformed ONull
| wf_disabler : wellformed ODisabler
| wf_array l : Forall wellformed l -> wellformed (OArray l)
| wf_dict d : Forall (fun kv => wellformed (snd kv)) d -> wellformed (ODict d)
| wf_other k id : (1 <= k <= 32)%N -> ~ In k [2; 9; 10]%N -> wellformed (OOther k id).

(** The names of types in a type are those of the 32 types, or void. *)
Fixpoint named (s : syntax) : Prop :=
  match s with
  | SName k => (k <= 32)%N
  | SList s | SDict s => named s
  | SOr a b => named a /\ named b
  | _ => True
  end.

(** The absence of a value is compared with a union that has void among its alternatives, somewhere
    on the way. *)
Fixpoint void_in_union (s : syntax) (v : obj) : Prop :=
  match s with
  | SList s => exists l, v = OArray l /\ Exists (void_in_union s) l
  | SDict s => exists d, v = ODict d /\ Exists (fun kv => void_in_union s (snd kv)) d
  | SOr a b =>
      (v = ONull /\ (a = SName 0 \/ b = SName 0)) \/ void_in_union a v \/ void_in_union b v
  | _ => False
  end.

(** A disabler is compared with a list or dict type, or the absence of a value with func, somewhere
    on the way. *)
Fixpoint meets (s : syntax) (v : obj) : Prop :=
  match s with
  | SName k => k = 32%N /\ v = ONull
  | SList s => v = ODisabler \/ exists l, v = OArray l /\ Exists (meets s) l
  | SDict s => v = ODisabler \/ exists d, v = ODict d /\ Exists (fun kv => meets s (snd kv)) d
  | SOr a b => meets a v \/ meets b v
  | _ => False
  end.

(** [tag] stands for the type [s] when the types declared so far are [tb]: the tag was made when the
    type was parsed, or is the number of a type in a table of a builtin function. *)
Definition stands_for (tb : table) (tag : N) (s : syntax) : Prop :=
  (exists before made later, parse_type s before = (tag, made) /\ tb = made ++ later)
  \/ (exists k, (1 <= k <= 32)%N /\ tag = k /\ s = SName k).

(** ** Calls *)
(** Values without disablers and without missing values. *)
Inductive proper : obj -> Prop :=
| pr_array l : Forall proper l -> proper (OArray l)
| pr_dict d : Forall (fun kv => proper (snd kv)) d -> proper (ODict d)
| pr_other k id : (1 <= k <= 32)%N -> ~ In k [2; 9; 10]%N -> proper (OOther k id).

(** What is left of a value when the arrays are dissolved. *)
Inductive leaves : obj -> list obj -> Prop :=
| lv_one v : (forall l, v <> OArray l) -> leaves v [v]
| lv_array l ls : Forall2 leaves l ls -> leaves (OArray l) (concat ls).

(** A type in which list[..] or dict[..] occurs. *)
Fixpoint compound (s : syntax) : Prop :=
  match s with SList _ | SDict _ => True | SOr a b => compound a \/ compound b | _ => False end.

(** A single file may be given as an array of one file. *)
Definition one_file (s : syntax) (v f : obj) : Prop :=
  (exists id, f = OOther 5 id) /\ v = OArray [f] /\ member s f /\ ~ compound s.

(** [takes p v w]: the parameter [p] takes the argument [v], and the function sees [w]. *)
Inductive takes : top -> obj -> obj -> Prop :=
| tk_plain s v : member s v -> (forall f, ~ one_file s v f) -> takes (TPlain s) v v
| tk_file s v f : one_file s v f -> takes (TPlain s) v f
| tk_listify s v l : leaves v l -> Forall (member s) l -> takes (TListify s) v (OArray l).

(** [takes_rest s v l]: one of the arguments of a glob parameter; the function sees the values [l]. *)
Inductive takes_rest (s : syntax) : obj -> list obj -> Prop :=
| tr_array a l : ~ member s (OArray a) -> leaves (OArray a) l -> Forall (member s) l -> takes_rest s (OArray a) l
| tr_value v w : (forall a, v = OArray a -> member s v) -> takes (TPlain s) v w -> takes_rest s v [w].

Record signature := mkSig {
  s_pos : list top;                              (* required *)
  s_rest : option syntax;                        (* the glob parameter, the last of them *)
  s_opt : option (list top);                     (* optional *)
  s_kw : option (list (bytes * top * bool))      (* keywords: name, type, required *)
}.

Definition positional (vs : list obj) : list arg := map (fun v => (None, Some v)) vs.
Definition keyworded (kvs : list (bytes * obj)) : list arg := map (fun kv => (Some (fst kv), Some (snd kv))) kvs.

(** The keyword arguments with the dictionary given as kwargs: in place. *)
Inductive spread : list (bytes * obj) -> list (bytes * obj) -> Prop :=
| sp_nil : spread [] []
| sp_key k v kvs r : k <> B "kwargs" -> spread kvs r -> spread ((k, v) :: kvs) ((k, v) :: r)
| sp_dict d kvs r : spread kvs r -> spread ((B "kwargs", ODict d) :: kvs) (d ++ r).

(** Parameters, arguments, and what the function sees, one by one. *)
Inductive takes_all : list top -> list obj -> list obj -> Prop :=
| ta_nil : takes_all [] [] []
| ta_cons p v w ps vs ws : takes p v w -> takes_all ps vs ws -> takes_all (p :: ps) (v :: vs) (w :: ws).

(** [p] and [o] are what the function sees of the positional arguments [vs]. *)
Definition binds_positional (sg : signature) (vs : list obj) (p : list obj) (o : list (option obj)) : Prop :=
  exists req more seen, vs = req ++ more /\ takes_all (s_pos sg) req seen /\
    match s_rest sg with
    | Some s => exists ls, Forall2 (takes_rest s) more ls /\ p = seen ++ [OArray (concat ls)] /\ o = []
    | None =>
        let opts := match s_opt sg with Some l => l | None => [] end in
        p = seen /\ length more <= length opts /\
        exists got, takes_all (firstn (length more) opts) more got
          /\ o = map Some got ++ repeat None (length opts - length more)
    end.

(** [vals] is what the function sees of the keyword arguments, in the order of the signature. *)
Definition binds_keywords (decls : list (bytes * top * bool)) (given : list (bytes * obj)) (vals : list (option obj)) : Prop :=
  NoDup (map fst given)
  /\ incl (map fst given) (map (fun d => fst (fst d)) decls)
  /\ Forall2 (fun (d : bytes * top * bool) (o : option obj) =>
       match o with
       | Some w => exists v, In (fst (fst d), v) given /\ takes (snd (fst d)) v w
       | None => snd d = false /\ ~ In (fst (fst d)) (map fst given)
       end) decls vals.

(** The call is accepted. *)
Definition binds (sg : signature) (args : list arg) (p : list obj) (o : list (option obj)) (k : list (option obj)) : Prop :=
  exists vs kvs, args = positional vs ++ keyworded kvs
    /\ binds_positional sg vs p o
    /\ match s_kw sg with
       | None => kvs = [] /\ k = []
       | Some decls => exists given, spread kvs given /\ binds_keywords decls given k
       end.

(** The tag of a parameter. *)
Definition param_tag (tb : table) (p : top) (tag : N) : Prop :=
  match p with
  | TPlain s => named s /\ stands_for tb tag s
  | TListify s => named s /\ exists t, stands_for tb t s /\ tag = N.lor LISTIFY t
  | _ => False
  end.
(** The signature, as the tables of a function. *)
Definition declared (tb : table) (sg : signature) (pos : list N) (opts : option (list N)) (kws : option (list kwarg)) : Prop :=
  (exists tags, Forall2 (param_tag tb) (s_pos sg) tags /\
     match s_rest sg with
     | None => pos = tags
     | Some s => exists t, named s /\ ~ compound s /\ stands_for tb t s /\ pos = tags ++ [N.lor GLOB t] /\ s_opt sg = None
     end)
  /\ match s_opt sg, opts with
     | None, None => True
     | Some l, Some tags => Forall2 (param_tag tb) l tags
     | _, _ => False
     end
  /\ match s_kw sg, kws with
     | None, None => True
     | Some l, Some ks =>
         NoDup (map (fun d => fst (fst d)) l) /\
         Forall2 (fun d k => key k = fst (fst d) /\ param_tag tb (snd (fst d)) (ktype k) /\ required k = snd d /\ kval k = None) l ks
     | _, _ => False
     end.
