(** Models of samurai's arena (src/external/samurai/util.c 98-146) and of the bucket arrays
    (src/datastructures/bucket_arr.c).  Sizes and indices are unbounded. *)
From Verif Require Import Base.

(** util.c 107 SAMU_ARENA_DEF_BLOCK_SIZE = BUF_SIZE_1m, kept symbolic as [BLK] (any multiple
    of 8).  A block is its size; an address is (block number, offset). *)
Record arena := mkArena { ablocks : list N; ai : N }.

Section Arena.
Variable BLK : N.

(** util.c 109-113 samu_arena_init, 98-105 samu_arena_push_block *)
Definition arena_init : arena := {| ablocks := [BLK]; ai := 0 |}.

(** util.c 128-146 samu_arena_alloc; [align] is -i & 7 *)
Definition arena_alloc (a : arena) (size : N) : arena * (nat * N) :=
  let align := ((8 - ai a mod 8) mod 8)%N in
  let i := (ai a + align)%N in
  let '(blocks, i) :=
    if ((BLK <? i + size) || (BLK <? size))%N
    then (ablocks a ++ [if (BLK <? size)%N then size else BLK], 0%N)
    else (ablocks a, i) in
  ({| ablocks := blocks; ai := (i + (align + size))%N |}, (length blocks - 1, i)).

Fixpoint arena_allocs (a : arena) (sizes : list N) : arena * list (nat * N * N) :=
  match sizes with
  | [] => (a, [])
  | s :: ss => let '(a1, (b, off)) := arena_alloc a s in
               let '(a2, r) := arena_allocs a1 ss in
               (a2, (b, off, s) :: r)
  end.
End Arena.

(** ** bucket arrays *)
Section Buckets.
Context {A : Type}.
Variable zero : A.          (* an item of all-zero bytes *)

(** bucket_arr.h 21-24: [bmem] has bucket_size items *)
Record bucket := mkBucket { bmem : list A; blen : nat }.
Record barr := mkBarr { buckets : list bucket; bsz : nat; btotal : nat; btail : nat }.

(** bucket_arr.c 16-20 init_bucket *)
Definition init_bucket (sz : nat) : bucket := {| bmem := repeat zero sz; blen := 0 |}.

(** bucket_arr.c 28-43 bucket_arr_init *)
Definition bucket_arr_init (sz : nat) : barr :=
  {| buckets := [init_bucket sz]; bsz := sz; btotal := 0; btail := 0 |}.

(** memcpy of [data] to position [off] *)
Definition memwrite (mem : list A) (off : nat) (data : list A) : list A :=
  firstn off mem ++ data ++ skipn (off + length data) mem.

(** bucket_arr.c 94-126 bucket_arr_pushn; the result pointer is (bucket, item offset);
    [None]: an assertion fails.  [data = []] stands for data == NULL. *)
Definition pushn (ba : barr) (data : list A) (reserve : nat) : option (barr * (nat * nat)) :=
  if negb (length data <=? reserve) then None              (* 99 *)
  else if negb (reserve <? bsz ba) then None                (* 100 *)
  else
    match nth_error (buckets ba) (btail ba) with            (* 102 *)
    | None => None
    | Some b =>
        let st :=
          if bsz ba <? blen b + reserve then                (* 104 *)
            if length (buckets ba) - 1 <=? btail ba then    (* 105 *)
              Some (buckets ba ++ [init_bucket (bsz ba)], S (btail ba))
            else
              match nth_error (buckets ba) (S (btail ba)) with
              | Some b' => if blen b' =? 0 then Some (buckets ba, S (btail ba)) else None
              | None => None
              end
          else Some (buckets ba, btail ba) in
        match st with
        | None => None
        | Some (bs, t) =>
            match nth_error bs t with
            | None => None
            | Some b =>
                let b' := {| bmem := memwrite (bmem b) (blen b) data; blen := blen b + reserve |} in
                Some ({| buckets := upd t b' bs; bsz := bsz ba;
                         btotal := btotal ba + reserve; btail := t |}, (t, blen b))
            end
        end
    end.

(** bucket_arr.c 128-132 bucket_arr_push *)
Definition push (ba : barr) (x : A) : option (barr * (nat * nat)) := pushn ba [x] 1.

(** bucket_arr.c 134-144 bucket_arr_get: the address, and the item there *)
Definition get_addr (ba : barr) (i : nat) : option (nat * nat) :=
  match nth_error (buckets ba) (i / bsz ba) with
  | Some b => if i mod bsz ba <? blen b then Some (i / bsz ba, i mod bsz ba) else None
  | None => None
  end.
Definition deref (ba : barr) (p : nat * nat) : option A :=
  match nth_error (buckets ba) (fst p) with
  | Some b => nth_error (bmem b) (snd p)
  | None => None
  end.
Definition get (ba : barr) (i : nat) : option A :=
  match get_addr ba i with Some p => deref ba p | None => None end.

(** bucket_arr.c 60-68 bucket_arr_save *)
Definition bsave (ba : barr) : option (nat * nat) :=
  match nth_error (buckets ba) (btail ba) with
  | Some b => Some (btail ba, blen b)
  | None => None
  end.

(** bucket_arr.c 78-79: zero everything from item [n] on *)
Definition zero_from (n : nat) (mem : list A) : list A := firstn n mem ++ repeat zero (length mem - n).
(** bucket_arr.c 84: zero the first [n] items *)
Definition zero_first (n : nat) (mem : list A) : list A := repeat zero n ++ skipn n mem.

(** bucket_arr.c 70-91 bucket_arr_restore *)
Definition brestore (ba : barr) (s : nat * nat) : option barr :=
  match nth_error (buckets ba) (fst s) with
  | None => None
  | Some b =>
      if snd s <=? blen b then
        let b' := {| bmem := zero_from (snd s) (bmem b); blen := snd s |} in
        let rest := skipn (S (fst s)) (buckets ba) in
        Some {| buckets := firstn (fst s) (buckets ba) ++ b' ::
                  map (fun b => {| bmem := zero_first (blen b) (bmem b); blen := 0 |}) rest;
                bsz := bsz ba;
                btotal := btotal ba - (blen b - snd s) - list_sum (map blen rest);
                btail := fst s |}
      else None
  end.

(** bucket_arr.c 45-58 bucket_arr_clear: btail is left alone *)
Definition bclear (ba : barr) : barr :=
  {| buckets := firstn 1 (map (fun b => {| bmem := bmem b; blen := 0 |}) (buckets ba));
     bsz := bsz ba; btotal := 0; btail := btail ba |}.

(** bucket_arr.c 161-176 bucket_arr_lookup_pointer; a pointer is (bucket, item offset) *)
Definition lookup_pointer (ba : barr) (p : nat * nat) : option nat :=
  match nth_error (buckets ba) (fst p) with
  | Some b => if snd p <? blen b then Some (fst p * bsz ba + snd p) else None
  | None => None
  end.

(** histories of single-item pushes, save points and restores of the n-th save point *)
Inductive bop := BPush (x : A) | BSave | BRestore (n : nat).
Definition bstep (st : barr * list (nat * nat)) (o : bop) : option (barr * list (nat * nat)) :=
  let '(ba, saves) := st in
  match o with
  | BPush x => match push ba x with Some (ba', _) => Some (ba', saves) | None => None end
  | BSave => match bsave ba with Some s => Some (ba, saves ++ [s]) | None => None end
  | BRestore n => match nth_error saves n with
                  | Some s => match brestore ba s with Some ba' => Some (ba', saves) | None => None end
                  | None => None
                  end
  end.
Fixpoint brun (st : barr * list (nat * nat)) (ops : list bop) : option (barr * list (nat * nat)) :=
  match ops with
  | [] => Some st
  | o :: ops' => match bstep st o with Some st' => brun st' ops' | None => None end
  end.

(** a history of pushn calls, with the regions handed out *)
Fixpoint pushns (ba : barr) (ops : list (list A * nat)) : option (barr * list (nat * nat * nat * list A)) :=
  match ops with
  | [] => Some (ba, [])
  | (d, r) :: ops' =>
      match pushn ba d r with
      | None => None
      | Some (ba1, (b, off)) =>
          match pushns ba1 ops' with
          | None => None
          | Some (ba2, regs) => Some (ba2, (b, off, r, d) :: regs)
          end
      end
  end.
End Buckets.
Arguments barr : clear implicits.
Arguments bucket : clear implicits.
Arguments bop : clear implicits.
