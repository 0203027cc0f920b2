(** Specification of permission strings and of what installing means. *)
From Verif Require Import Base M_Path M_Install.
From Coq Require Import NArith.

(** ** The permission column of ls -l, without the file type *)
(** read/write letter of bit [n] *)
Definition letter (m n : N) (c : ascii) : ascii := if N.testbit m n then c else "-"%char.
(** execute letter: [n] is the execute bit, [sp] the set-id or sticky bit *)
Definition xletter (m n sp : N) (both only : ascii) : ascii :=
  if N.testbit m sp then if N.testbit m n then both else only
  else if N.testbit m n then "x"%char else "-"%char.
Definition ls_l (m : N) : bytes :=
  [letter m 8 "r"; letter m 7 "w"; xletter m 6 11 "s" "S";
   letter m 5 "r"; letter m 4 "w"; xletter m 3 10 "s" "S";
   letter m 2 "r"; letter m 1 "w"; xletter m 0 9 "t" "T"].
Example ls_examples : ls_l 420 = B "rw-r--r--" /\ ls_l 493 = B "rwxr-xr-x" /\ ls_l 2541 = B "rwsr-xr-x" /\ ls_l 1023 = B "rwxrwxrwt" /\ ls_l 3072 = B "--S--S---".
Proof. vm_compute. auto. Qed.

(** ** Installing *)
(** Every action in the log succeeded. *)
Definition clean (l : log) : Prop := Forall (fun e => snd e = true) l.
Definition done (o : op) (l : log) : Prop := In (o, true) l.

(** The files below a directory that are to be installed with it: (source, destination). *)
Inductive wanted (t : target) (root : bytes) : bytes -> tree -> bytes -> bytes -> bytes -> bytes -> Prop :=
| W_file : forall name sb db s d rel,
    path_join sb name = Some s -> path_join db name = Some d ->
    path_relative_to root s = Some rel -> ~ In rel (texfiles t) ->
    wanted t root name TFile sb db s d
| W_dir : forall name es sb db s d rel n t' s' d',
    path_join sb name = Some s -> path_join db name = Some d ->
    path_relative_to root s = Some rel -> ~ In rel (texdirs t) ->
    In (n, t') es -> wanted t root n t' s d s' d' ->
    wanted t root name (TDir es) sb db s' d'.

(** [t] is in place: what it names was copied, linked or made, and given its mode. *)
Definition in_place (w : world) (t : target) (dest : bytes) (l : log) : Prop :=
  (match tkind t with
   | KDefault => (done (CopyFile (tsrc t) dest) l \/ done (CopyDir (tsrc t) dest) l) /\
                 (tbuild t = true -> done (FixRpaths dest) l)
   | KSymlink => done (Symlink (tsrc t) dest) l
   | KEmptydir => done (MkdirP dest) l
   | KSubdir => forall n tr s d, In (n, tr) (entries_of w (tsrc t)) ->
                  wanted t (tsrc t) n tr (tsrc t) dest s d -> done (CopyFile s d) l
   end) /\
  (forall m, tperm t = Some m -> done (Chmod dest m) l).

(** No device, socket or fifo below a directory. *)
Inductive plain : tree -> Prop :=
| P_file : plain TFile
| P_dir : forall es, (forall n t, In (n, t) es -> plain t) -> plain (TDir es).
(** Where a target goes: its destination, below DESTDIR if there is one. *)
Definition goes_to (o : options) (cwd : bytes) (t : target) (d : bytes) : Prop :=
  match destdir o with
  | None => d = tdest t
  | Some dd => exists abs, path_make_absolute cwd dd = Some abs /\ path_join_absolute abs (tdest t) = Some d
  end.
(** The script was run, and ended well. *)
Definition ran (s : script) (l : log) : Prop := exists env, done (RunScript (cmdline s) env) l.
(** Installation succeeded. *)
Definition installed (w : world) (o : options) (cwd : bytes) (m : manifest) (l : log) : Prop :=
  (forall t, In t (targets m) -> exists d, goes_to o cwd t d /\ in_place w t d l) /\
  (forall s, In s (scripts m) -> ran s l).
