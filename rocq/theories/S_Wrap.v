(** What a wrap file may say and what fetching a subproject must do. *)
From Verif Require Import Base.
Local Arguments B _ : simpl never.

(** ** The lines of a wrap file: the section, and the key and value unless it is its header *)
Definition item := (option bytes * option (bytes * bytes))%type.

(** keys are in the section whose header is the last before them *)
Fixpoint in_order (cur : option bytes) (ls : list item) : Prop :=
  match ls with
  | [] => True
  | (s, None) :: ls => s <> None /\ in_order s ls
  | (s, Some _) :: ls => s = cur /\ in_order cur ls
  end.

Definition headers (ls : list item) : list bytes :=
  flat_map (fun l => match l with (Some s, None) => [s] | _ => [] end) ls.
(** the sections that say what kind of wrap it is *)
Definition kinds (ls : list item) : list bytes := filter (fun s => negb (beqb s (B "provide"))) (headers ls).
(** the fields: keys and values outside of [provide] *)
Definition given_fields (ls : list item) : list (bytes * bytes) :=
  flat_map (fun l => match l with
                     | (Some s, Some kv) => if beqb s (B "provide") then [] else [kv]
                     | _ => [] end) ls.

Definition documented : list bytes :=
  map B ["directory"; "patch_url"; "patch_fallback_url"; "patch_filename"; "patch_hash";
    "patch_directory"; "diff_files"; "source_url"; "source_fallback_url"; "source_filename";
    "source_hash"; "lead_directory_missing"; "url"; "revision"; "depth"; "push-url";
    "clone-recursive"; "wrapdb_version"]%string.

(** the fields that are given fit together *)
Definition fit (git : Prop) (fs : list (bytes * bytes)) : Prop :=
  let given k := In (B k) (map fst fs) in
  (given "patch_url" \/ given "patch_hash" \/ given "patch_fallback_url" -> given "patch_filename")%string
  /\ (given "patch_directory" -> ~ given "patch_filename")%string
  /\ (git -> given "url" /\ given "revision"
      /\ ~ given "source_url" /\ ~ given "source_fallback_url" /\ ~ given "source_filename"
      /\ ~ given "source_hash" /\ ~ given "lead_directory_missing")%string
  /\ (~ git -> (given "source_url" -> given "source_filename")
      /\ ~ given "url" /\ ~ given "revision" /\ ~ given "depth" /\ ~ given "push-url"
      /\ ~ given "clone-recursive")%string.

Definition acceptable (ls : list item) : Prop :=
  Forall (fun l : item => fst l <> None) ls
  /\ Forall (fun s => In s [B "wrap-file"; B "wrap-git"; B "provide"]) (headers ls)
  /\ length (kinds ls) <= 1
  /\ NoDup (map fst (given_fields ls))
  /\ Forall (fun kv => In (fst kv) documented) (given_fields ls)
  /\ fit (In (B "wrap-git") (headers ls)) (given_fields ls).

(** ** Hashes as text *)
Definition digit (c : ascii) (n : nat) : Prop :=
  nth_error (B "0123456789abcdef") n = Some c \/ nth_error (B "0123456789ABCDEF") n = Some c.
Definition hex (s : bytes) : Prop := Forall (fun c => exists n, digit c n) s.
(** two digits for each byte *)
Fixpoint spells (s : bytes) (l : list N) : Prop :=
  match s, l with
  | a :: b :: s, n :: l => (exists x y, digit a x /\ digit b y /\ n = N.of_nat (16 * x + y)) /\ spells s l
  | [], [] => True
  | _, _ => False
  end.

(** ** Lists of patches *)
Definition blank (c : ascii) : Prop := c = " "%char \/ c = CR \/ c = TAB.
Definition name_ok (f : bytes) : Prop :=
  ~ In NUL f /\ ~ In ","%char f /\ (exists c t, f = c :: t /\ ~ blank c).
(** names with commas between them, each followed by any blanks *)
Inductive separated : list bytes -> bytes -> Prop :=
| separated_one : forall f, separated [f] f
| separated_more : forall f fs ws s, Forall blank ws -> separated fs s -> separated (f :: fs) (f ++ ","%char :: ws ++ s).

(** ** What is fetched *)
Definition value (k : bytes) (fs : list (bytes * bytes)) : option bytes :=
  option_map snd (find (fun kv => beqb (fst kv) k) fs).

(** a subproject has two parts, its source and what is patched into it: the name of a file or
    directory that may be in packagefiles, a url and a hash *)
Definition part (fs : list (bytes * bytes)) (name url hash : option bytes) : Prop :=
  (name = value (B "source_filename") fs /\ url = value (B "source_url") fs /\ hash = value (B "source_hash") fs)
  \/ ((name = value (B "patch_filename") fs \/ name = value (B "patch_directory") fs)
      /\ url = value (B "patch_url") fs /\ hash = value (B "patch_hash") fs).
