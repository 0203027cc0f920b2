(** Model of src/external/samurai/htab.c.

    The key is the byte string (samu_hashtablekey also caches its hash; a key's hash field is
    always the hash of its bytes, samu_htabkey 22-28).  The hash function is a section
    variable; samu_murmurhash64a is one instance.  Values are pointers, NULL = [None].
    size_t arithmetic is unbounded. *)
From Verif Require Import Base M_Hash.

Section Htab.
Context {V : Type}.
Variable hash_of : bytes -> N.

(** htab.c 16-20; [keys] and [vals] zipped, a NULL key string is [None] *)
Record htab := mkHtab { hslots : list (option (bytes * option V)); hcap : nat; hlen : nat }.

(** htab.c 30-47 samu_mkhtab *)
Definition mkhtab (c : nat) : htab := {| hslots := repeat None c; hcap := c; hlen := 0 |}.

(** htab.c 49-55 samu_keyequal *)
Definition keyequal (a b : bytes) : bool :=
  N.eqb (hash_of a) (hash_of b) && (length a =? length b) && beqb a b.

Definition hslot (h : htab) (i : nat) := nth i (hslots h) None.

(** htab.c 57-66 samu_keyindex; [None]: the loop has not stopped after [fuel] probes *)
Fixpoint keyindex_from (fuel : nat) (h : htab) (k : bytes) (i : nat) : option nat :=
  match fuel with
  | 0 => None
  | S fuel' =>
      match hslot h i with
      | None => Some i
      | Some (k', _) => if keyequal k' k then Some i
                        else keyindex_from fuel' h k (next (hcap h) i)
      end
  end.
Definition home0 (c : nat) (hv : N) : nat := N.to_nat (N.land hv (N.of_nat c - 1)).
Definition keyindex (h : htab) (k : bytes) : option nat :=
  keyindex_from (hcap h) h k (home0 (hcap h) (hash_of k)).

Definition hset (h : htab) (i : nat) (s : option (bytes * option V)) : htab :=
  {| hslots := upd i s (hslots h); hcap := hcap h; hlen := hlen h |}.

(** htab.c 83-89 the copy loop *)
Fixpoint hcopy (old : list (option (bytes * option V))) (h : htab) : option htab :=
  match old with
  | [] => Some h
  | None :: old' => hcopy old' h
  | Some (k, v) :: old' =>
      match keyindex h k with
      | None => None
      | Some j => hcopy old' (hset h j (Some (k, v)))
      end
  end.

(** htab.c 75-90 *)
Definition hgrow (h : htab) : option htab :=
  if Nat.div2 (hcap h) <? hlen h then
    hcopy (hslots h) {| hslots := repeat None (hcap h * 2); hcap := hcap h * 2; hlen := hlen h |}
  else Some h.

(** htab.c 68-100 samu_htabput; the returned pointer &vals[i] is the index i *)
Definition htabput (h : htab) (k : bytes) : option (htab * nat) :=
  match hgrow h with
  | None => None
  | Some h =>
      match keyindex h k with
      | None => None
      | Some i =>
          match hslot h i with
          | None => Some ({| hslots := upd i (Some (k, None)) (hslots h); hcap := hcap h;
                             hlen := S (hlen h) |}, i)
          | Some _ => Some (h, i)
          end
      end
  end.

(** writing through, and reading from, the returned pointer *)
Definition hwrite (h : htab) (i : nat) (v : option V) : htab :=
  match hslot h i with
  | Some (k, _) => hset h i (Some (k, v))
  | None => h
  end.
Definition hread (h : htab) (i : nat) : option V :=
  match hslot h i with Some (_, v) => v | None => None end.

(** htab.c 102-109 samu_htabget; outer [None]: does not stop *)
Definition htabget (h : htab) (k : bytes) : option (option V) :=
  match keyindex h k with
  | None => None
  | Some i => Some (match hslot h i with Some (_, v) => v | None => None end)
  end.

(** A history: [put k] alone (the caller only looks at the slot), or put and store. *)
Inductive htop := TPut (k : bytes) | TStore (k : bytes) (v : V).
Definition htstep (h : htab) (o : htop) : option htab :=
  match o with
  | TPut k => option_map fst (htabput h k)
  | TStore k v => match htabput h k with
                  | Some (h', i) => Some (hwrite h' i (Some v))
                  | None => None
                  end
  end.
Fixpoint htrun (h : htab) (ops : list htop) : option htab :=
  match ops with
  | [] => Some h
  | o :: ops' => match htstep h o with Some h' => htrun h' ops' | None => None end
  end.
End Htab.
Arguments htab : clear implicits.
Arguments htop : clear implicits.

(** htab.c 111-152 samu_murmurhash64a (little endian) *)
Definition mask64 (n : N) : N := N.modulo n two64.
Fixpoint le_bytes (l : bytes) : N :=
  match l with [] => 0%N | c :: l' => (N_of_ascii c + 256 * le_bytes l')%N end.
Definition mm : N := 14313749767032793493%N.
Definition mseed : N := 16053920545901312941%N.
Definition mm_word (h : N) (w : bytes) : N :=
  let k := mask64 (le_bytes w * mm) in
  let k := N.lxor k (N.shiftr k 47) in
  let k := mask64 (k * mm) in
  mask64 (N.lxor h k * mm).
Fixpoint mm_words (n : nat) (h : N) (l : bytes) : N * bytes :=
  match n with
  | 0 => (h, l)
  | S n' => mm_words n' (mm_word h (firstn 8 l)) (skipn 8 l)
  end.
Definition murmurhash64a (l : bytes) : N :=
  let h := N.lxor mseed (mask64 (N.of_nat (length l) * mm)) in
  let '(h, rest) := mm_words (length l / 8) h l in
  let h := match rest with [] => h | _ => mask64 (N.lxor h (le_bytes rest) * mm) end in
  let h := N.lxor h (N.shiftr h 47) in
  let h := mask64 (h * mm) in
  N.lxor h (N.shiftr h 47).
