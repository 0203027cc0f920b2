(** What the dictionary calls mean on insertion-ordered finite maps: lists of (key, value)
    pairs with distinct keys. *)
From Verif Require Import Base M_Dict.

Section S.
Context {K : Type}.
Variable eqb : K -> K -> bool.
Variable str_of : nat -> K.

Definition omap := list (K * nat).
Definition lookup (l : omap) (k : K) : option nat := option_map snd (find (fun p => eqb (fst p) k) l).
(** a new key goes to the end, an old one keeps its place *)
Definition set_entry (l : omap) (k : K) (v : nat) : omap :=
  if existsb (fun p => eqb (fst p) k) l
  then map (fun p => if eqb (fst p) k then (k, v) else p) l
  else l ++ [(k, v)].
Definition del_entry (l : omap) (k : K) : omap := filter (fun p => negb (eqb (fst p) k)) l.
Definition update (l m : omap) : omap := fold_left (fun l p => set_entry l (fst p) (snd p)) m l.

(** Each dictionary also remembers whether it has ever been written to while it had 15 or more
    entries (the code calls such a dictionary big). *)
Definition store := list (omap * bool).
Definition written (d : omap * bool) (m : omap) : omap * bool :=
  fold_left (fun '(l, b) p => (set_entry l (fst p) (snd p), b || (15 <=? length l))) m d.

Definition spec_step (s : store) (c : call) : option (store * answer K) :=
  match c with
  | New => Some (s ++ [([], false)], ANone)
  | Put d k v =>
      if k =? 0 then None else
      do e <- nth_error s d; Some (upd d (written e [(str_of k, v)]) s, ANone)
  | Get d k => do (l, _) <- nth_error s d; Some (s, AVal (lookup l (str_of k)))
  | Delete d k => do (l, b) <- nth_error s d; Some (upd d (del_entry l (str_of k), b) s, ANone)
  | Dup d => do (l, _) <- nth_error s d; Some (s ++ [(written ([], false) l)], ANone)
  | Merge x y => do (l, _) <- nth_error s x; do (m, _) <- nth_error s y;
                 Some (s ++ [written (written ([], false) l) m], ANone)
  | MergeInto x y =>
      if x =? y then None else
      do e <- nth_error s x; do (m, _) <- nth_error s y; Some (upd x (written e m) s, ANone)
  | Entries d => do (l, _) <- nth_error s d; Some (s, AEntries l)
  | Length d => do (l, _) <- nth_error s d; Some (s, ANum (length l))
  end.
Fixpoint spec_run (s : store) (cs : list call) : option (store * list (answer K)) :=
  match cs with
  | [] => Some (s, [])
  | c :: cs => do (s, r) <- spec_step s c; do (s, rs) <- spec_run s cs; Some (s, r :: rs)
  end.

(** the call the code gets wrong: deleting a key from a big dictionary that has it *)
Definition deletes_from_big (s : store) (c : call) : bool :=
  match c with
  | Delete d k => match nth_error s d with
                  | Some (l, true) => existsb (fun p => eqb (fst p) (str_of k)) l
                  | _ => false
                  end
  | _ => false
  end.
Fixpoint never_deletes_from_big (s : store) (cs : list call) : Prop :=
  match cs with
  | [] => True
  | c :: cs => deletes_from_big s c = false /\
               forall s' r, spec_step s c = Some (s', r) -> never_deletes_from_big s' cs
  end.
End S.
