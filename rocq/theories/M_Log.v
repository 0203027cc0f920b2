(** The build log .ninja_log: src/external/samurai/log.c. *)
From Verif Require Import Base M_Format M_Formats.
From Coq Require Import NArith.

(** strtoull in base 16: the value and what is left of the text *)
Definition hexv (c : ascii) : option N :=
  let v := N_of_ascii c in
  if is_digit c then Some (v - 48)%N
  else if ((97 <=? v) && (v <=? 102))%N then Some (v - 87)%N
  else if ((65 <=? v) && (v <=? 70))%N then Some (v - 55)%N
  else None.
Fixpoint hex_digits (l : bytes) (acc : N) : N * bytes :=
  match l with
  | [] => (acc, [])
  | c :: l' => match hexv c with Some v => hex_digits l' (acc * 16 + v)%N | None => (acc, l) end
  end.
Definition strtoull16 (l : bytes) : N * bytes :=
  let l1 := dropw c_isspace l in
  let '(neg, l2) := match l1 with
                    | c :: r => if ceqb c "-"%char then (true, r) else if ceqb c "+"%char then (false, r) else (false, l1)
                    | [] => (false, l1)
                    end in
  let l3 := match l2 with
            | z :: x :: ((c :: _) as r) =>
                if ceqb z "0"%char && (ceqb x "x"%char || ceqb x "X"%char) && (if hexv c then true else false)
                then r else l2
            | _ => l2
            end in
  match l3 with
  | c :: _ =>
      if hexv c then
        let '(v, rest) := hex_digits l3 0 in
        ((if (v <? 2 ^ 64)%N then if neg then (2 ^ 64 - v) mod 2 ^ 64 else v else 2 ^ 64 - 1)%N, rest)
      else (0%N, l)
  | [] => (0%N, l)
  end.

(** log.c 23-24, 50 sscanf(line, "# ninja log v%d\n", &ver): white space in the format matches any
    amount of white space.  A number that does not fit in an int is kept. *)
Fixpoint lit (p l : bytes) : option bytes :=
  match p, l with
  | [], _ => Some l
  | a :: p', b :: l' => if ceqb a b then lit p' l' else None
  | _, [] => None
  end.
Definition scan_version (line : bytes) : option Z :=
  let ws x := match x with Some l => Some (dropw c_isspace l) | None => None end in
  let lt s x := match x with Some l => lit (B s) l | None => None end in
  match lt "v"%string (ws (lt "log"%string (ws (lt "ninja"%string (ws (lt "#"%string (Some line))))))) with
  | None => None
  | Some l =>
      let l := dropw c_isspace l in
      let '(neg, d) := match l with
                       | c :: r => if ceqb c "-"%char then (true, r) else if ceqb c "+"%char then (false, r) else (false, l)
                       | [] => (false, l)
                       end in
      match d with
      | c :: _ => if is_digit c then let v := fst (digits_val d 0) in Some (if neg then - v else v)%Z else None
      | [] => None
      end
  end.

(** the fields logmtime and hash of the nodes; for a node without record they are
    SAMU_MTIME_MISSING and 0 (graph.c 53-54) *)
Definition nodes := bytes -> Z * N.
Definition no_records : nodes := fun _ => (2%Z, 0%N).
Definition set (p : bytes) (x : Z * N) (st : nodes) : nodes := fun q => if beqb p q then x else st q.

(** 41-117 samu_log_parse_cb; [gen p]: there is a node with the path [p], and an edge builds it.
    The state is whether this is the first line, and the nodes.  Warnings are not modelled. *)
Definition parse_cb (gen : bytes -> bool) (s : bool * nodes) (_ : option ascii) (line : bytes)
  : option ((bool * nodes) * bool) :=
  let '(first, st) := s in
  let cont st := Some ((false, st), true) in
  if first then
    match scan_version line with
    | Some v => if (v =? 5)%Z then cont st else Some ((true, st), false)
    | None => Some ((true, st), false)
    end
  else
    let fields := firstn 5 (split_on TAB line) in
    match nth_error fields 3 with
    | None => cont st
    | Some p =>
        if negb (gen p) then cont st
        else
          match nth_error fields 2 with
          | None => cont st
          | Some t =>
              let '(m, rest) := strtol t in
              let st := set p (m, snd (st p)) st in
              match rest with
              | _ :: _ => cont st
              | [] =>
                  match nth_error fields 4 with
                  | None => cont st
                  | Some t => cont (set p (m, fst (strtoull16 t)) st)
                  end
              end
          end
    end.
(** 171-182; a NUL follows the contents of the file in memory *)
Definition loginit (gen : bytes -> bool) (file : bytes) : option nodes :=
  match each_line (parse_cb gen) (true, no_records) (file ++ [NUL]) (length file) with
  | Some (_, st) => Some st
  | None => None
  end.

(** printf's "%x" *)
Definition hexc (n : N) : ascii := if (n <? 10)%N then ascii_of_N (n + 48) else ascii_of_N (n + 87).
Fixpoint print_hex (fuel : nat) (n : N) (acc : bytes) : bytes :=
  match fuel with
  | 0 => acc
  | S f => let acc := hexc (n mod 16) :: acc in
           if (n <? 16)%N then acc else print_hex f (n / 16)%N acc
  end.
Definition hex_of (n : N) : bytes := print_hex (S (N.to_nat (N.log2 n))) n [].
(** 199-203 samu_logrecord *)
Definition logrecord (p : bytes) (m : Z) (h : N) : bytes :=
  B "0" ++ [TAB] ++ B "0" ++ [TAB] ++ number_to_string m ++ [TAB] ++ p ++ [TAB] ++ hex_of h ++ [NL].
(** 23, 138 *)
Definition version_line : bytes := B "# ninja log v5" ++ [NL].
(** 119-152; [outs]: the outputs of all edges *)
Definition write_graph (outs : list bytes) (st : nodes) : bytes :=
  version_line ++
  flat_map (fun p => let '(m, h) := st p in if (h =? 0)%N then [] else logrecord p m h) outs.
