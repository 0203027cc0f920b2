(** What the documentation says of arguments for all targets. *)
From Verif Require Import Base M_Addargs.
Local Arguments B _ : simpl never.

(** the languages that can be named *)
Definition known (l : bytes) : Prop :=
  In l [B "c"; B "cpp"; B "objc"; B "assembly"; B "llvm_ir"; B "nasm"] \/ In l [B "null"; B "c_hdr"; B "cpp_hdr"; B "c_obj"].

Definition same (a b : kind) : bool := match a, b with Compile, Compile | Link, Link | Include, Include => true | _, _ => false end.
(** words that are given once for each time a language is named *)
Definition per_language (l : bytes) (langs args : list bytes) : list bytes := flat_map (fun x => if beqb x l then args else []) langs.

(** what calls give to all projects, and to one project *)
Definition to_all (k : kind) (l : bytes) (h : list (nat * op)) : list bytes :=
  flat_map (fun c => match snd c with AddGlobal k' args langs => if same k k' then per_language l langs args else [] | _ => [] end) h.
Definition to_project (p : nat) (k : kind) (l : bytes) (h : list (nat * op)) : list bytes :=
  flat_map (fun c => if fst c =? p
                     then match snd c with
                          | AddProject k' args langs => if same k k' then per_language l langs args else []
                          | AddDeps cs ls is langs => per_language l langs (match k with Compile => cs | Link => ls | Include => is end)
                          | _ => []
                          end
                     else []) h.

(** the languages named by a call *)
Definition languages (o : op) : list bytes := match o with AddProject _ _ ls | AddGlobal _ _ ls | AddDeps _ _ _ ls => ls end.

(** the languages to which dependencies are added are known, and ones of the project *)
Definition declared_all (declared : nat -> bytes -> bool) (h : list (nat * op)) : Prop :=
  Forall (fun c => match snd c with AddDeps _ _ _ langs => Forall (fun y => known y /\ declared (fst c) y = true) langs | _ => True end) h.
