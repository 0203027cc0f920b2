(** Model of src/datastructures/hash.c.

    The key type, the key comparison (keycmp) and the hash function are parameters of a
    section, so every theorem holds for all of them; the only requirement is that keycmp
    decides equality.  (hash_keycmp_memcmp does; hash_keycmp_strcmp does for keys without
    NUL bytes because strncmp stops at the first NUL.)

    The parallel arrays [meta] and [e] are zipped into one list of slots:
    k_empty = SEmpty, k_deleted = SDeleted, a meta byte with the top bit clear = SFull.
    size_t arithmetic is unbounded; cap * 0.5f is exact because cap is a power of two. *)
From Verif Require Import Base.

Section Hash.
Context {K V : Type}.
Variable keycmp : K -> K -> bool.
Variable hash_func : K -> N.

Inductive slot :=
| SEmpty
| SDeleted
| SFull (h2 : N) (val : V) (keyi : nat).

(** hash.h 20-25 struct hash *)
Record hash := mkHash {
  slots : list slot;
  keys : list K;
  cap : nat;
  len : nat;
  load : nat;
  max_load : nat;
}.

(** hash.c 24 LOAD_FACTOR, 94/216 max_load *)
Definition half (c : nat) : nat := Nat.div2 c.

(** hash.c 88-107 hash_init (ASSERT_VALID_CAP is a precondition of the theorems) *)
Definition hash_init (c : nat) : hash :=
  {| slots := repeat SEmpty c; keys := []; cap := c; len := 0; load := 0; max_load := half c |}.

(** hash.c 184 [h1 & h->capm] *)
Definition home (c : nat) (hv : N) : nat := N.to_nat (N.land (N.shiftr hv 7) (N.of_nat c - 1)).
(** hash.c 190 [(hvi + 1) & h->capm] *)
Definition next (c i : nat) : nat := N.to_nat (N.land (N.of_nat i + 1) (N.of_nat c - 1)).
(** hash.c 182 [hv & 0x7f] *)
Definition h2_of (hv : N) : N := N.land hv 127.

Definition slot_at (h : hash) (i : nat) : slot := nth i (slots h) SEmpty.

(** hash.c 177-178 the [match] macro *)
Definition slot_matches (h : hash) (h2 : N) (key : K) (s : slot) : bool :=
  match s with
  | SFull m _ ki =>
      (N.eqb m h2) && match nth_error (keys h) ki with
                      | Some k => keycmp k key
                      | None => false
                      end
  | _ => false
  end.

(** hash.c 189-193 probing loop; [None] means it has not stopped within [fuel] steps *)
Fixpoint probe_from (fuel : nat) (h : hash) (h2 : N) (key : K) (i : nat) : option nat :=
  match fuel with
  | 0 => None
  | S fuel' =>
      match slot_at h i with
      | SDeleted => probe_from fuel' h h2 key (next (cap h) i)
      | SFull _ _ _ as s =>
          if slot_matches h h2 key s then Some i
          else probe_from fuel' h h2 key (next (cap h) i)
      | SEmpty => Some i
      end
  end.

(** hash.c 174-200 probe *)
Definition probe (h : hash) (key : K) : option nat :=
  let hv := hash_func key in
  probe_from (cap h) h (h2_of hv) key (home (cap h) hv).

Definition set_slot (h : hash) (i : nat) (s : slot) : hash :=
  {| slots := upd i s (slots h); keys := keys h; cap := cap h;
     len := len h; load := load h; max_load := max_load h |}.

(** hash.c 223-238: the copy loop of resize; [None]: probing does not stop or the assert at
    233 fails *)
Fixpoint rehash (old : list slot) (nh : hash) : option hash :=
  match old with
  | [] => Some nh
  | SFull m v ki :: old' =>
      match nth_error (keys nh) ki with
      | None => None
      | Some key =>
          match probe nh key with
          | None => None
          | Some i =>
              match slot_at nh i with
              | SFull _ _ _ => None
              | _ => rehash old' (set_slot nh i (SFull (h2_of (hash_func key)) v ki))
              end
          end
      end
  | _ :: old' => rehash old' nh
  end.

(** hash.c 202-243 resize *)
Definition resize (h : hash) (newcap : nat) : option hash :=
  rehash (slots h)
    {| slots := repeat SEmpty newcap; keys := keys h; cap := newcap;
       len := len h; load := load h; max_load := half newcap |}.

(** hash.c 245-255 hash_get; outer option: does not stop *)
Definition hash_get (h : hash) (key : K) : option (option V) :=
  match probe h key with
  | None => None
  | Some i => match slot_at h i with
              | SFull _ v _ => Some (Some v)
              | _ => Some None
              end
  end.

(** hash.c 264-279 hash_unset *)
Definition hash_unset (h : hash) (key : K) : option hash :=
  match probe h key with
  | None => None
  | Some i =>
      let h' :=
        match slot_at h i with
        | SFull _ _ _ =>
            {| slots := upd i SDeleted (slots h); keys := keys h; cap := cap h;
               len := pred (len h); load := load h; max_load := max_load h |}
        | _ => h
        end in
      match hash_get h' key with                 (* 278 assert *)
      | Some None => Some h'
      | _ => None
      end
  end.

(** hash.c 288-311 hash_set *)
Definition hash_set (h : hash) (key : K) (v : V) : option hash :=
  match (if max_load h <? load h then resize h (cap h * 2) else Some h) with
  | None => None
  | Some h =>
      match probe h key with
      | None => None
      | Some i =>
          match slot_at h i with
          | SFull m _ ki => Some (set_slot h i (SFull m v ki))
          | _ =>
              Some {| slots := upd i (SFull (h2_of (hash_func key)) v (length (keys h))) (slots h);
                      keys := keys h ++ [key]; cap := cap h;
                      len := S (len h); load := S (load h); max_load := max_load h |}
          end
      end
  end.

(** hash.c 167-172 hash_clear (the keys array keeps its contents) *)
Definition hash_clear (h : hash) : hash :=
  {| slots := repeat SEmpty (cap h); keys := keys h; cap := cap h;
     len := 0; load := 0; max_load := max_load h |}.

(** hash.c 147-165 hash_for_each_with_keys: the (key, value) pairs visited *)
Definition hash_entries (h : hash) : list (K * V) :=
  flat_map (fun s => match s with
                     | SFull _ v ki => match nth_error (keys h) ki with
                                       | Some k => [(k, v)]
                                       | None => []
                                       end
                     | _ => []
                     end) (slots h).

(** A history of calls. *)
Inductive hop := HSet (k : K) (v : V) | HUnset (k : K) | HClear.

Definition hstep (h : hash) (o : hop) : option hash :=
  match o with
  | HSet k v => hash_set h k v
  | HUnset k => hash_unset h k
  | HClear => Some (hash_clear h)
  end.

Fixpoint hrun (h : hash) (ops : list hop) : option hash :=
  match ops with
  | [] => Some h
  | o :: ops' => match hstep h o with Some h' => hrun h' ops' | None => None end
  end.

End Hash.

Arguments SEmpty {V}.
Arguments SDeleted {V}.
Arguments SFull {V} h2 val keyi.
Arguments hash : clear implicits.
Arguments slot : clear implicits.
Arguments hop : clear implicits.

(** hash.c 30-43 fnv_1a_64_str.  [char] is taken as signed (x86): a byte above 127 is
    sign-extended before the xor.  The index is a uint16_t and wraps at 65536.  One unit of
    fuel per iteration; [None]: still looping when the fuel is used up. *)
Definition fnv_offset : N := 14695981039346656037.
Definition fnv_prime : N := 1099511628211.
Definition two64 : N := 18446744073709551616.
Definition two16 : N := 65536.
Definition sext8 (c : ascii) : N :=
  let n := N_of_ascii c in if N.ltb n 128 then n else (two64 - 256 + n)%N.
Definition fnv_step (h x : N) : N := N.modulo (N.lxor h x * fnv_prime) two64.

Fixpoint fnv_str_loop (fuel : nat) (key : bytes) (i : N) (h : N) : option N :=
  match fuel with
  | 0 => None
  | S fuel' =>
      if N.ltb i (N.of_nat (length key)) then
        fnv_str_loop fuel' key (N.modulo (i + 1) two16)
          (fnv_step h (sext8 (nth (N.to_nat i) key NUL)))
      else Some h
  end.
Definition fnv_1a_64_str (fuel : nat) (key : bytes) : option N := fnv_str_loop fuel key 0 fnv_offset.

(** hash.c 109-114 hash_keycmp_strcmp: equal lengths and strncmp() == 0; strncmp stops at a
    NUL in both strings *)
Fixpoint strn_equal (a b : bytes) : bool :=
  match a, b with
  | x :: a', y :: b' => ceqb x y && (ceqb x NUL || strn_equal a' b')
  | [], [] => true
  | _, _ => false
  end.
Definition hash_keycmp_strcmp (a b : bytes) : bool :=
  (length a =? length b) && strn_equal a b.

(** hash.c 116-122 hash_init_str: the hash function of a string table, for keys of at most
    65535 bytes (0 stands for the non-terminating case and is excluded by the theorems) *)
Definition str_hash (key : bytes) : N :=
  match fnv_1a_64_str (S (length key)) key with Some h => h | None => 0%N end.
