(** What .ninja_deps means, after the description of the format at deps.c 24-50; nothing here
    refers to the model. *)
From Verif Require Import Base.
From Coq Require Import NArith.

(** a record: the path of the next node, or the dependencies of a node *)
Inductive record := NodeR (path : bytes) | DepR (id : nat) (mtime : Z) (ids : list nat).

(** four bytes, the low one first *)
Definition word (v : N) : bytes :=
  [ascii_of_N (v mod 256); ascii_of_N (v / 256 mod 256); ascii_of_N (v / 65536 mod 256); ascii_of_N (v / 16777216 mod 256)].
Definition wordn (v : nat) : bytes := word (N.of_nat v).

(** the record, if [n] nodes came before it *)
Definition encode1 (n : nat) (r : record) : bytes :=
  match r with
  | NodeR p =>
      let padding := (4 - length p mod 4) mod 4 in
      wordn (length p + padding + 4) ++ p ++ repeat NUL padding ++ word (4294967295 - N.of_nat n)
  | DepR id m ids =>
      let t := Z.to_N (m mod 18446744073709551616) in (* as a 64 bit integer *)
      word (2147483648 + 12 + 4 * N.of_nat (length ids)) ++ wordn id
        ++ word (t mod 4294967296) ++ word (t / 4294967296) ++ flat_map wordn ids
  end.
Definition count (n : nat) (r : record) : nat := match r with NodeR _ => S n | _ => n end.
Fixpoint encode (n : nat) (rs : list record) : bytes :=
  match rs with [] => [] | r :: rs' => encode1 n r ++ encode (count n r) rs' end.
Definition header : bytes := B "# ninjadeps" ++ [NL] ++ word 4.
Definition log_of (rs : list record) : bytes := header ++ encode 0 rs.

(** the records that are complete in the first [k] bytes after the header *)
Fixpoint complete (n k : nat) (rs : list record) : list record :=
  match rs with
  | [] => []
  | r :: rs' => let l := length (encode1 n r) in
                if l <=? k then r :: complete (count n r) (k - l) rs' else []
  end.
(** the records that are complete in the first [k] bytes of the file *)
Definition complete_in (k : nat) (rs : list record) : list record := complete 0 (k - 16) rs.

(** the nodes named by the log, in the order of their IDs *)
Definition paths (rs : list record) : list bytes :=
  flat_map (fun r => match r with NodeR p => [p] | _ => [] end) rs.

(** records that can be written: the path of a node is not empty and
    does not end in a NUL, nodes are named once
    and before they are used, and no record is larger than 2^19 *)
Definition good_path (p : bytes) : Prop :=
  (exists a c, p = a ++ [c] /\ c <> NUL) /\ (N.of_nat (length p) < 524277)%N.
Fixpoint good (n : nat) (rs : list record) : Prop :=
  match rs with
  | [] => True
  | NodeR p :: rs' => good_path p /\ (N.of_nat n < 2147483647)%N /\ good (S n) rs'
  | DepR id m ids :: rs' =>
      id < n /\ Forall (fun i => i < n) ids /\ (- 2 ^ 63 <= m < 2 ^ 63)%Z
      /\ (N.of_nat (length ids) < 131068)%N /\ good n rs'
  end.
Definition well_formed (rs : list record) : Prop := good 0 rs /\ NoDup (paths rs).

(** the last record of the dependencies of the node [p] *)
Fixpoint latest (ps : list bytes) (rs : list record) (p : bytes) (acc : option (Z * list bytes)) : option (Z * list bytes) :=
  match rs with
  | [] => acc
  | DepR id m ids :: rs' =>
      latest ps rs' p (if beqb (nth id ps []) p then Some (m, map (fun i => nth i ps []) ids) else acc)
  | NodeR _ :: rs' => latest ps rs' p acc
  end.
Definition recorded (rs : list record) (p : bytes) : option (Z * list bytes) := latest (paths rs) rs p None.

(** the dependencies of [p] in the log, if there are any and [p] still has an edge that records
    dependencies *)
Definition dependencies (hd : bytes -> bool) (rs : list record) (p : bytes) : option (Z * list bytes) :=
  match recorded rs p with
  | Some (m, d :: ds) => if hd p then Some (m, d :: ds) else None
  | _ => None
  end.
(** paths and time stamps of what the program may record *)
Definition path_ok (p : bytes) : Prop := exists a c, p = a ++ [c] /\ c <> NUL.
Definition fact_ok (r : bytes * Z * list bytes) : Prop :=
  let '(p, m, ds) := r in path_ok p /\ Forall path_ok ds /\ (- 2 ^ 63 <= m < 2 ^ 63)%Z.
