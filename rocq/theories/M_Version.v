(** Model of src/rpmvercmp.c and the version_compare functions of src/functions/string.c.
    A [struct str] is a byte list; the C indices ai/bi are represented by the remaining
    suffixes.  [isalnum], [isdigit] and [isalpha] are those of the C locale; bytes above
    127 (for which the C code passes a negative value) are taken to be in no class. *)
From Verif Require Import Base.

(** memcmp of the first n bytes, as a sign *)
Fixpoint memcmp_sign (n : nat) (a b : bytes) : Z :=
  match n, a, b with
  | S n', x :: a', y :: b' =>
      if cval x <? cval y then (-1)%Z
      else if cval y <? cval x then 1%Z
      else memcmp_sign n' a' b'
  | _, _, _ => 0%Z
  end.

(** rpmvercmp.c 139-147: what is left when one side is exhausted *)
Definition rpm_final (a b : bytes) : Z :=
  match a, b with
  | [], [] => 0%Z
  | [], _ => (-1)%Z
  | _, _ => 1%Z
  end.

(** rpmvercmp.c 42-137: the segment loop.  [None] stands for the failing assert at 81 and
    for running out of fuel. *)
Fixpoint rpm_loop (fuel : nat) (a b : bytes) : option Z :=
  match fuel with
  | 0 => None
  | S fuel' =>
      match a, b with
      | [], _ => Some (rpm_final a b)                          (* 42 *)
      | _, [] => Some (rpm_final a b)
      | _, _ =>
          let a1 := dropw (fun c => negb (is_alnum c)) a in    (* 43-45 *)
          let b1 := dropw (fun c => negb (is_alnum c)) b in    (* 46-48 *)
          match a1, b1 with
          | [], _ => Some (rpm_final a1 b1)                    (* 51-53 *)
          | _, [] => Some (rpm_final a1 b1)
          | ca :: _, _ :: _ =>
              let isnum := is_digit ca in                      (* 61 *)
              let cls := if isnum then is_digit else is_alpha in
              let '(sa, ra) := span cls a1 in                  (* 62-77 *)
              let '(sb, rb) := span cls b1 in
              if beqb sa [] then None                          (* 81 assert *)
              else if beqb sb [] then Some (if isnum then 1%Z else (-1)%Z)  (* 87-89 *)
              else
                (* 97-103: the zeros are skipped from the start of the segment without
                   looking at its end *)
                let a2 := if isnum then dropw (ceqb "0"%char) a1 else a1 in
                let b2 := if isnum then dropw (ceqb "0"%char) b1 else b1 in
                (* ap - ai and bp - bi *)
                let al := length sa - (length a1 - length a2) in
                let bl := length sb - (length b1 - length b2) in
                if isnum && (bl <? al) then Some 1%Z           (* 106-108 *)
                else if isnum && (al <? bl) then Some (-1)%Z   (* 109-111 *)
                else
                  let rc := memcmp_sign (Nat.min al bl) a2 b2 in  (* 121 *)
                  if (rc =? 0)%Z then
                    if al =? bl then rpm_loop fuel' ra rb      (* 130-136 *)
                    else Some (if bl <? al then 1%Z else (-1)%Z)  (* 124-128 *)
                  else Some (if (rc <? 1)%Z then (-1)%Z else 1%Z) (* 122-123 *)
          end
      end
  end.

(** rpmvercmp.c 27-148 rpmvercmp *)
Definition rpmvercmp (a b : bytes) : option Z :=
  if beqb a b then Some 0%Z                                     (* 36-38 *)
  else rpm_loop (S (length a)) a b.

(** functions/string.c 277-284 *)
Inductive ver_op := op_ge | op_gt | op_eq | op_ne | op_le | op_lt.

(** functions/string.c 287-295: the table, in order *)
Definition ver_ops : list (bytes * ver_op) :=
  [ (B ">=", op_ge); (B ">", op_gt); (B "==", op_eq); (B "!=", op_ne);
    (B "<=", op_le); (B "<", op_lt); (B "=", op_eq) ].

(** functions/string.c 297-305 *)
Fixpoint split_op (ops : list (bytes * ver_op)) (v : bytes) : ver_op * bytes :=
  match ops with
  | [] => (op_eq, v)
  | (name, op) :: ops' =>
      if starts_with name v then (op, skipn (length name) v) else split_op ops' v
  end.

(** functions/string.c 309-328 *)
Definition op_holds (op : ver_op) (cmp : Z) : bool :=
  match op with
  | op_eq => (cmp =? 0)%Z
  | op_ne => negb (cmp =? 0)%Z
  | op_gt => (cmp =? 1)%Z
  | op_ge => (0 <=? cmp)%Z
  | op_lt => (cmp =? -1)%Z
  | op_le => (cmp <=? 0)%Z
  end.

(** functions/string.c 272-335 version_compare_iter: the result stored in ctx->res *)
Definition version_check (ver req : bytes) : option bool :=
  let '(op, v2) := split_op ver_ops req in
  match rpmvercmp ver v2 with
  | Some cmp => Some (op_holds op cmp)
  | None => None
  end.

(** functions/string.c 337-351 version_compare: the foreach stops at the first requirement
    that does not hold; ctx.res starts out false. *)
Fixpoint version_compare_from (res : bool) (ver : bytes) (reqs : list bytes) : option bool :=
  match reqs with
  | [] => Some res
  | r :: rs => match version_check ver r with
               | Some true => version_compare_from true ver rs
               | Some false => Some false
               | None => None
               end
  end.
Definition version_compare (ver : bytes) (reqs : list bytes) : option bool :=
  version_compare_from false ver reqs.
