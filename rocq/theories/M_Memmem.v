(** Substring search: src/memmem.c.  A pointer into the haystack is an offset; a read outside of the
    haystack or of the needle is a distinct outcome.  size_t does not wrap: the sums of the code are
    below the length of an object in memory, except for ip and ms, which start at -1 and are kept
    here one higher (ip1, ms1). *)
From Verif Require Import Base.
From Coq Require Import NArith.

Inductive outcome (A : Type) := Ok (x : A) | OutOfRange | NoFuel.
Arguments Ok {A}. Arguments OutOfRange {A}. Arguments NoFuel {A}.

(** unsigned char, uint16_t and uint32_t *)
Definition uc (c : ascii) : N := N_of_ascii c.
Definition u16 (x : N) : N := (x mod 2 ^ 16)%N.
Definition u32 (x : N) : N := (x mod 2 ^ 32)%N.
Definition shl (x c : N) : N := N.shiftl x c.

(** 15-25; [off]: h - 2; the list is what k counts *)
Fixpoint twobyte_loop (nw hw : N) (off : nat) (h : bytes) : option nat :=
  match h with
  | [] => if (hw =? nw)%N then Some off else None
  | c :: h' => if (hw =? nw)%N then Some off
               else twobyte_loop nw (u16 (N.lor (shl hw 8) (uc c))) (S off) h'
  end.
Definition twobyte_memmem (h n : bytes) : outcome (option nat) :=
  match n, h with
  | n0 :: n1 :: _, h0 :: h1 :: h' =>
      Ok (twobyte_loop (u16 (N.lor (shl (uc n0) 8) (uc n1))) (u16 (N.lor (shl (uc h0) 8) (uc h1))) 0 h')
  | _, _ => OutOfRange
  end.
(** 27-38 *)
Fixpoint threebyte_loop (nw hw : N) (off : nat) (h : bytes) : option nat :=
  match h with
  | [] => if (hw =? nw)%N then Some off else None
  | c :: h' => if (hw =? nw)%N then Some off
               else threebyte_loop nw (u32 (shl (N.lor hw (uc c)) 8)) (S off) h'
  end.
Definition threebyte_memmem (h n : bytes) : outcome (option nat) :=
  match n, h with
  | n0 :: n1 :: n2 :: _, h0 :: h1 :: h2 :: h' =>
      Ok (threebyte_loop (u32 (N.lor (N.lor (shl (uc n0) 24) (shl (uc n1) 16)) (shl (uc n2) 8)))
                         (u32 (N.lor (N.lor (shl (uc h0) 24) (shl (uc h1) 16)) (shl (uc h2) 8))) 0 h')
  | _, _ => OutOfRange
  end.
(** 40-51 *)
Fixpoint fourbyte_loop (nw hw : N) (off : nat) (h : bytes) : option nat :=
  match h with
  | [] => if (hw =? nw)%N then Some off else None
  | c :: h' => if (hw =? nw)%N then Some off
               else fourbyte_loop nw (u32 (N.lor (shl hw 8) (uc c))) (S off) h'
  end.
Definition fourbyte_memmem (h n : bytes) : outcome (option nat) :=
  match n, h with
  | n0 :: n1 :: n2 :: n3 :: _, h0 :: h1 :: h2 :: h3 :: h' =>
      Ok (fourbyte_loop
            (u32 (N.lor (N.lor (N.lor (shl (uc n0) 24) (shl (uc n1) 16)) (shl (uc n2) 8)) (uc n3)))
            (u32 (N.lor (N.lor (N.lor (shl (uc h0) 24) (shl (uc h1) 16)) (shl (uc h2) 8)) (uc h3))) 0 h')
  | _, _ => OutOfRange
  end.

(** 63-66 byteset and shift in one table: [None], the byte is not in byteset *)
Definition table := ascii -> option nat.
Fixpoint fill (i : nat) (n : bytes) (t : table) : table :=
  match n with
  | [] => t
  | c :: n' => fill (S i) n' (fun d => if ceqb d c then Some (i + 1) else t d)
  end.
(** 68-86 and, with the other comparison [gt], 90-108; gives ip + 1 and p *)
Fixpoint max_suffix (gt : ascii -> ascii -> bool) (n : bytes) (fuel ip1 jp k p : nat) : outcome (nat * nat) :=
  match fuel with
  | 0 => NoFuel
  | S fuel =>
      if jp + k <? length n then
        match nth_error n (ip1 + k - 1), nth_error n (jp + k) with
        | Some a, Some b =>
            if ceqb a b then
              if k =? p then max_suffix gt n fuel ip1 (jp + p) 1 p
              else max_suffix gt n fuel ip1 jp (k + 1) p
            else if gt a b then max_suffix gt n fuel ip1 (jp + k) 1 (jp + k + 1 - ip1)
            else max_suffix gt n fuel (jp + 1) (jp + 1) 1 1
        | _, _ => OutOfRange
        end
      else Ok (ip1, p)
  end.
Definition above (a b : ascii) : bool := cval b <? cval a.
Definition below (a b : ascii) : bool := cval a <? cval b.

(** memcmp(n, n + p, k) != 0; [None]: reads past the end *)
Definition differ (n : bytes) (p k : nat) : option bool :=
  if p + k <=? length n then Some (negb (beqb (firstn k n) (firstn k (skipn p n)))) else None.

(** 148-151 *)
Fixpoint right_half (n h : bytes) (o fuel k : nat) : outcome nat :=
  match fuel with
  | 0 => NoFuel
  | S fuel =>
      if k <? length n then
        match nth_error n k, nth_error h (o + k) with
        | Some a, Some b => if ceqb a b then right_half n h o fuel (S k) else Ok k
        | _, _ => OutOfRange
        end
      else Ok k
  end.
(** 157-160 *)
Fixpoint left_half (n h : bytes) (o mem k : nat) : outcome nat :=
  match k with
  | 0 => Ok 0
  | S k' =>
      if mem <? k then
        match nth_error n k', nth_error h (o + k') with
        | Some a, Some b => if ceqb a b then left_half n h o mem k' else Ok k
        | _, _ => OutOfRange
        end
      else Ok k
  end.
(** 124-166; [o]: the pointer h *)
Fixpoint search (t : table) (n h : bytes) (ms1 p mem0 fuel o mem : nat) : outcome (option nat) :=
  match fuel with
  | 0 => NoFuel
  | S fuel =>
      let l := length n in
      if length h <? o then OutOfRange
      else if length h - o <? l then Ok None
      else
        match nth_error h (o + (l - 1)) with
        | None => OutOfRange
        | Some c =>
            match t c with
            | None => search t n h ms1 p mem0 fuel (o + l) 0
            | Some s =>
                let k := l - s in
                if negb (k =? 0) then search t n h ms1 p mem0 fuel (o + (if k <? mem then mem else k)) 0
                else
                  match right_half n h o (S l) (Nat.max ms1 mem) with
                  | Ok k =>
                      if k <? l then search t n h ms1 p mem0 fuel (o + (k + 1 - ms1)) 0
                      else
                        match left_half n h o mem ms1 with
                        | Ok k => if k <=? mem then Ok (Some o)
                                  else search t n h ms1 p mem0 fuel (o + p) mem0
                        | OutOfRange => OutOfRange
                        | NoFuel => NoFuel
                        end
                  | OutOfRange => OutOfRange
                  | NoFuel => NoFuel
                  end
            end
        end
  end.
(** 56-167.  At 118 ms is not -1: memcmp of no bytes is 0. *)
Definition twoway_memmem (fuel : nat) (h n : bytes) : outcome (option nat) :=
  let l := length n in
  let t := fill 0 n (fun _ => None) in
  match max_suffix above n fuel 0 0 1 1, max_suffix below n fuel 0 0 1 1 with
  | Ok (ms1, p0), Ok (ip1, p) =>
      let '(ms1, p) := if ms1 <? ip1 then (ip1, p) else (ms1, p0) in
      match differ n p ms1 with
      | None => OutOfRange
      | Some true => search t n h ms1 (Nat.max (ms1 - 1) (l - ms1) + 1) 0 fuel 0 0
      | Some false => search t n h ms1 p (l - p) fuel 0 0
      end
  | NoFuel, _ | _, NoFuel => NoFuel
  | _, _ => OutOfRange
  end.

(** memchr *)
Fixpoint memchr (h : bytes) (c : ascii) : option nat :=
  match h with
  | [] => None
  | d :: h' => if ceqb d c then Some 0 else option_map S (memchr h' c)
  end.
(** 169-204 *)
Definition memmem (fuel : nat) (h n : bytes) : outcome (option nat) :=
  match n with
  | [] => Ok (Some 0)
  | c :: _ =>
      let l := length n in
      if length h <? l then Ok None
      else
        match memchr h c with
        | None => Ok None
        | Some o =>
            if l =? 1 then Ok (Some o)
            else
              let h' := skipn o h in
              if length h' <? l then Ok None
              else
                let r := if l =? 2 then twobyte_memmem h' n
                         else if l =? 3 then threebyte_memmem h' n
                         else if l =? 4 then fourbyte_memmem h' n
                         else twoway_memmem fuel h' n in
                match r with
                | Ok x => Ok (option_map (fun i => o + i) x)
                | OutOfRange => OutOfRange
                | NoFuel => NoFuel
                end
        end
  end.
