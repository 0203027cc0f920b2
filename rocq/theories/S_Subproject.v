(** What the documentation says of subproject(). *)
From Verif Require Import Base M_Path M_Version S_Version M_Feature S_Feature M_Subproject.
Local Arguments B _ : simpl never.

(** ** The keyword required: *)
Definition required (g : option state) (kw : option kwarg) : Prop :=
  kw = None \/ kw = Some (KBool true) \/ exists fo, kw = Some (KFeature fo) /\ seen g fo Enabled.
Definition optional (g : option state) (kw : option kwarg) : Prop :=
  kw = Some (KBool false) \/ exists fo, kw = Some (KFeature fo) /\ seen g fo Auto.
Definition disabled (g : option state) (kw : option kwarg) : Prop := exists fo, kw = Some (KFeature fo) /\ seen g fo Disabled.

(** ** Where a subproject is *)
(** the directory of its name in that of the subprojects, or what a wrap file beside it has put there *)
Inductive located (w : world) (root subdir name : bytes) : bytes -> Prop :=
| there d : join_paths [root; subdir; name] = Some d -> is_dir w d = true -> located w root subdir name d
| fetched d : join_paths [root; subdir; name] = Some d -> is_dir w d = false ->
    is_file w (d ++ B ".wrap") = true -> wrapped w (d ++ B ".wrap") = Some None -> located w root subdir name d
| fetched_to d base dir e : join_paths [root; subdir; name] = Some d -> is_dir w d = false ->
    is_file w (d ++ B ".wrap") = true -> wrapped w (d ++ B ".wrap") = Some (Some dir) ->
    path_dirname d = Some base -> join_paths [base; dir] = Some e -> located w root subdir name e.
Definition has_build (w : world) (d : bytes) : Prop := exists p, join_paths [d; B "meson.build"] = Some p /\ is_file w p = true.

(** the first value of a name in a list *)
Definition first_for {A} (n : bytes) (l : list (bytes * A)) (x : A) : Prop :=
  exists l1 l2, l = l1 ++ (n, x) :: l2 /\ forall y, ~ In (n, y) l1.
Definition none_for {A} (n : bytes) (l : list (bytes * A)) : Prop := forall y, ~ In (n, y) l.

(** ** Histories *)
(** calls that are made one after the other by projects in any directories, whether they fail or not *)
Inductive history (w : world) (g : option state) : st -> st -> Prop :=
| no_call s : history w g s s
| one_call s s' fuel root subdir c : history w g s s' -> history w g s (fst (subproject fuel w g root subdir s' c)).

(** ** The calls of a project *)
(** all go well, each with what those before it have left *)
Inductive in_turn (f : st -> call -> st * out (option sub)) : st -> list call -> st -> Prop :=
| all_made s : in_turn f s [] s
| next_made s c s1 x l s2 : f s c = (s1, Done x) -> in_turn f s1 l s2 -> in_turn f s (c :: l) s2.
(** the first that fails ends them *)
Definition stopped (f : st -> call -> st * out (option sub)) (s : st) (l : list call) (s' : st) : Prop :=
  exists l1 c l2 s1, l = l1 ++ c :: l2 /\ in_turn f s l1 s1 /\ f s1 c = (s', Failed).
