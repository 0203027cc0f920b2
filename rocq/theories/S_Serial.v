(** What objects of a workspace mean: the values that are to survive being saved and loaded. *)
From Coq Require Import NArith.
From Verif Require Import Base M_Serial.

(** Values as a build file sees them.  Numbers are given as 64-bit words; the fields of
    structures that are no objects are numbers, too. *)
Inductive value :=
| VNull
| VNumber (n : N)
| VBool (b : bool)
| VString (s : bytes)
| VFile (s : bytes)
| VFeature (state : N)
| VArray (l : list value)
| VDict (l : list (bytes * value))
| VEnv (actions : value)
| VConf (d : value)
| VRun (out err : value) (status flags : N)
| VTest (name exe : bytes) (workdir : option bytes) (args env suites depends timeout priority : value)
        (should_fail is_parallel verbose category protocol : N)
| VInstall (src dest : bytes) (has_perm perm : N) (exclude_dirs exclude_files : value) (type build_target : N)
| VOption (name val choices max min deprecated description : value) (source type kind yield builtin : N).

(** [den o v]: the object [o] has the value [v], if [cellat] gives the objects of the workspace,
    [elemat] the elements of dictionaries, [strat] the bytes of string objects and [tableat] the
    tables of big dictionaries *)
Section Meaning.
Variable cellat : N -> option cell.
Variable elemat : N -> option elem.
Variable strat : N -> option bytes.
Variable tableat : nat -> option (list (N * N)).

Definition opt_str (o : N) (s : option bytes) : Prop :=
  match s with None => o = 0%N | Some s => o <> 0%N /\ strat o = Some s end.

Inductive den : N -> value -> Prop :=
| d_null o v : cellat o = Some (Simple 0 v) -> den o VNull
| d_bool o v : cellat o = Some (Simple 4 v) -> den o (VBool (negb (v mod 256 =? 0)%N))
| d_file o s x : cellat o = Some (Simple 5 s) -> strat s = Some x -> den o (VFile x)
| d_feature o v : cellat o = Some (Simple 6 v) -> den o (VFeature v)
| d_number o v : cellat o = Some (Number v) -> den o (VNumber v)
| d_string o s : strat o = Some s -> den o (VString s)
| d_array0 o v n t h : cellat o = Some (Arr v n t 0 h) -> den o (VArray [])
| d_array o v n t h l : cellat o = Some (Arr v n t (N.of_nat (length l)) h) -> chain v n h l -> den o (VArray l)
| d_dict0 o d t f : cellat o = Some (Dict d 0 t f) -> den o (VDict [])
| d_dict o d t f l : cellat o = Some (Dict d (N.of_nat (length l)) t f) -> N.testbit f 0 = false ->
    echain d l -> den o (VDict l)
| d_big o d t f ps x l : cellat o = Some (Dict d (N.of_nat (length (x :: l))) t f) -> N.testbit f 0 = true ->
    tableat (N.to_nat d) = Some ps -> pairs ps (x :: l) -> den o (VDict (x :: l))
| d_env o a x : cellat o = Some (Rec 23 [a]) -> den a x -> den o (VEnv x)
| d_conf o a x : cellat o = Some (Rec 19 [a]) -> den a x -> den o (VConf x)
| d_run o a b x y s f : cellat o = Some (Rec 18 [a; b; s; f]) -> den a x -> den b y -> den o (VRun x y s f)
| d_test o n e a en su w d t p pad nv ev wv av env suv dv tv pv sf ip vb c pr :
    cellat o = Some (Rec 20 [n; e; a; en; su; w; d; t; p; sf; ip; vb; pad; c; pr]) -> (pad < 256)%N ->
    strat n = Some nv -> strat e = Some ev -> opt_str w wv ->
    den a av -> den en env -> den su suv -> den d dv -> den t tv -> den p pv ->
    den o (VTest nv ev wv av env suv dv tv pv sf ip vb c pr)
| d_install o s d hp p1 pm ed ef ty bt p2 sv dv edv efv :
    cellat o = Some (Rec 22 [s; d; hp; p1; pm; ed; ef; ty; bt; p2]) ->
    strat s = Some sv -> strat d = Some dv -> den ed edv -> den ef efv ->
    den o (VInstall sv dv hp pm edv efv ty bt)
| d_option o n v c mx mn dp ds so ty ki yi bu pad nv vv cv mxv mnv dpv dsv :
    cellat o = Some (Rec 25 [n; v; c; mx; mn; dp; ds; so; ty; ki; yi; bu; pad]) ->
    den n nv -> den v vv -> den c cv -> den mx mxv -> den mn mnv -> den dp dpv -> den ds dsv ->
    den o (VOption nv vv cv mxv mnv dpv dsv so ty ki yi bu)
with chain : N -> N -> bool -> list value -> Prop :=
| c_last v n x : den v x -> chain v n false [x]
| c_next v n x v' n' t' l' h' l : den v x -> cellat n = Some (Arr v' n' t' l' h') -> chain v' n' h' l ->
    chain v n true (x :: l)
with echain : N -> list (bytes * value) -> Prop :=
| e_last e k v s x : elemat e = Some (0%N, k, v) -> strat k = Some s -> den v x -> echain e [(s, x)]
| e_next e n k v s x l : elemat e = Some (n, k, v) -> n <> 0%N -> strat k = Some s -> den v x ->
    echain n l -> echain e ((s, x) :: l)
with pairs : list (N * N) -> list (bytes * value) -> Prop :=
| p_nil : pairs [] []
| p_cons k v s x ps l : strat k = Some s -> den v x -> pairs ps l -> pairs ((k, v) :: ps) ((s, x) :: l).
End Meaning.

Definition strat (w : wk) (o : N) : option bytes := match str w o with Ok s => Some s | _ => None end.
Definition elemat (w : wk) (e : N) : option elem := bget ELEMS_BUCKET (elems w) e.
Definition denotes (w : wk) (o : N) (v : value) : Prop :=
  den (get w) (elemat w) (strat w) (nth_error (hashes w)) o v.

(** values that can be saved: no string has 4095 bytes, keys are distinct, numbers fit into their
    fields.  [auto]: the value of the option auto_features *)
Definition string_fits (s : bytes) : Prop := length s <> N.to_nat 4095.
Definition opt_fits (s : option bytes) : Prop := match s with Some s => string_fits s | None => True end.
Fixpoint fits (auto : option N) (v : value) : Prop :=
  match v with
  | VNull | VBool _ => True
  | VNumber n => (n < 2 ^ 64)%N
  | VString s | VFile s => string_fits s
  | VFeature n => (n < 2 ^ 32)%N /\ (n = 0%N -> auto = None \/ auto = Some 0%N)
  | VArray l => (fix all l := match l with [] => True | x :: l => fits auto x /\ all l end) l
  | VDict l => NoDup (map fst l) /\
      (fix all l := match l with [] => True | (k, x) :: l => string_fits k /\ fits auto x /\ all l end) l
  | VEnv x | VConf x => fits auto x
  | VRun x y s f => fits auto x /\ fits auto y /\ (s < 2 ^ 32 /\ f < 2 ^ 32)%N
  | VTest n e w a en su d t p sf ip vb c pr =>
      (string_fits n /\ string_fits e /\ opt_fits w) /\
      (fits auto a /\ fits auto en /\ fits auto su /\ fits auto d /\ fits auto t /\ fits auto p) /\
      (sf < 256 /\ ip < 256 /\ vb < 256 /\ c < 2 ^ 32 /\ pr < 2 ^ 32)%N
  | VInstall s d hp pm ed ef ty bt =>
      (string_fits s /\ string_fits d) /\ (fits auto ed /\ fits auto ef) /\
      (hp < 256 /\ pm < 2 ^ 32 /\ ty < 2 ^ 32 /\ bt < 256)%N
  | VOption n v c mx mn dp ds so ty ki yi bu =>
      (fits auto n /\ fits auto v /\ fits auto c /\ fits auto mx /\ fits auto mn /\ fits auto dp /\ fits auto ds) /\
      (so < 2 ^ 32 /\ ty < 2 ^ 32 /\ ki = 0 /\ yi < 256 /\ bu < 256)%N
  end.

(** a bound of the memory a value needs *)
Definition string_room (s : bytes) : N := (3 + 2 * N.of_nat (length s))%N.
Fixpoint room (v : value) : N :=
  match v with
  | VNull => 0
  | VNumber _ | VBool _ | VFeature _ => 1
  | VString s => string_room s
  | VFile s => 1 + string_room s
  | VArray l => 1 + (fix sum l := match l with [] => 0 | x :: l => 1 + room x + sum l end) l
  | VDict l => 1 + (fix sum l := match l with [] => 0 | (k, x) :: l => 1 + string_room k + room x + sum l end) l
  | VEnv x | VConf x => 1 + room x
  | VRun x y _ _ => 1 + room x + room y
  | VTest n e w a en su d t p _ _ _ _ _ =>
      1 + string_room n + string_room e + match w with Some w => string_room w | None => 0 end
      + room a + room en + room su + room d + room t + room p
  | VInstall s d _ _ ed ef _ _ => 1 + string_room s + string_room d + room ed + room ef
  | VOption n v c mx mn dp ds _ _ _ _ _ => 1 + room n + room v + room c + room mx + room mn + room dp + room ds
  end%N.

(** workspaces of a running program: object 0 is null, strings are inside of what is used of their
    bucket, the elements of dictionaries are in buckets that are full except for the last one,
    and the table of strings is right *)
Definition string_placed (w : wk) (c : cell) : Prop :=
  match c with
  | Str (InBucket b off) len _ => exists l, nth_error (chrs w) (N.to_nat b) = Some l /\ (off + len <= N.of_nat (length l))%N
  | _ => True
  end.
Fixpoint full_but_last (bs : list (list elem)) : Prop :=
  match bs with
  | [] => False
  | [b] => 0 < length b <= N.to_nat ELEMS_BUCKET
  | b :: bs => length b = N.to_nat ELEMS_BUCKET /\ full_but_last bs
  end.
Record sane (w : wk) : Prop := {
  sane_null : get w 0 = Some (Simple 0 0);
  sane_chrs : chrs w <> [] /\ Forall (fun b => length b <= N.to_nat CHRS_BUCKET) (chrs w);
  sane_strs : Forall (string_placed w) (objs w);
  sane_elems : full_but_last (elems w);
  sane_hash : forall s o, In (s, o) (strh w) -> strat w o = Some s
}.
