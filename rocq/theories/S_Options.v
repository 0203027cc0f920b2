(** What options mean. *)
From Coq Require Import ZArith.
From Verif Require Import Base M_Format S_Format M_Feature M_Options.

(** ** strings that set options *)
(** [s] is [sub:]key=v *)
Definition plain (n : bytes) : Prop := n <> [] /\ ~ In ":"%char n /\ ~ In "="%char n.
Definition config_form (s : bytes) (sub : option bytes) (key v : bytes) : Prop :=
  ~ In NUL s /\ plain key /\
  match sub with
  | None => s = key ++ B "=" ++ v
  | Some n => plain n /\ s = n ++ B ":" ++ key ++ B "=" ++ v
  end.

(** ** declared types *)
Definition conforms (o : opt) : Prop :=
  match type o with
  | OpString => exists s, val o = VStr s
  | OpBoolean => exists b, val o = VBool b
  | OpCombo => exists s l, val o = VStr s /\ choices o = Some l /\ In (VStr s) l
  | OpInteger => exists n, val o = VNum n /\ (forall m, max o = Some m -> n <= m)%Z /\ (forall m, min o = Some m -> m <= n)%Z
  | OpArray => exists l, val o = VArr l /\ (forall c, choices o = Some c -> forall v, In v l -> In v c)
  | OpFeature => exists f, val o = VFeature f
  end.

(** ** the value a string stands for *)
(** the first [old] in a list is replaced *)
Definition first_replaced (old new : bytes) (l m : list value) : Prop :=
  (~ In (VStr old) l /\ m = l) \/ (exists a b, l = a ++ VStr old :: b /\ ~ In (VStr old) a /\ m = a ++ VStr new :: b).
(** ... for all values that are deprecated in favour of another *)
Fixpoint all_replaced (d : list (bytes * option bytes)) (l m : list value) : Prop :=
  match d with
  | [] => m = l
  | (_, None) :: d => all_replaced d l m
  | (old, Some new) :: d => exists k, first_replaced old new l k /\ all_replaced d k m
  end.

Section Meaning.
Variable eval : bytes -> option value.   (* arrays in the syntax of the language *)

(** the elements of a list: nothing, an array in the syntax of the language, or separated by commas *)
Definition elements (s : bytes) (v : value) : Prop :=
  (s = [] /\ v = VArr []) \/ (exists r, s = B "[" ++ r /\ eval s = Some v)
  \/ (s <> [] /\ (forall r, s <> B "[" ++ r) /\ exists l, v = VArr (map VStr l) /\ joinb (B ",") l = s /\ Forall (fun x => ~ In ","%char x) l).

(** a text for an option that is not an array *)
Definition text_means (t : otype) (s : bytes) (v : value) : Prop :=
  match t with
  | OpString | OpCombo => v = VStr s
  | OpBoolean => (s = B "true" /\ v = VBool true) \/ (s = B "false" /\ v = VBool false)
  | OpInteger => exists z, reads_as s z /\ v = VNum (Z.max (- 2 ^ 63) (Z.min (2 ^ 63 - 1) z))
  | OpFeature => (s = B "auto" /\ v = VFeature Auto) \/ (s = B "enabled" /\ v = VFeature Enabled) \/ (s = B "disabled" /\ v = VFeature Disabled)
  | OpArray => False
  end.

(** a string for an option: values that are deprecated in favour of others are replaced first *)
Definition string_means (o : opt) (s : bytes) (v : value) : Prop :=
  match type o with
  | OpArray =>
      exists l, elements s l /\
        match depr o with
        | Some (DValues d) => exists a b, l = VArr a /\ all_replaced d a b /\ v = VArr b
        | _ => v = l
        end
  | t =>
      match depr o with
      | Some (DValues d) =>
          (exists n, In (s, Some n) d /\ text_means t n v) \/ ((forall n, ~ In (s, Some n) d) /\ text_means t s v)
      | _ => text_means t s v
      end
  end.

(** a setting: a string to be read, or a value *)
Definition means (o : opt) (new_val : value) (coerce : bool) (v : value) : Prop :=
  if coerce then exists s, new_val = VStr s /\ string_means o s v
  else match type o, new_val with
       | OpFeature, VStr s => text_means OpFeature s v
       | _, _ => v = new_val
       end.
End Meaning.

(** ** settings *)
Record setting := mkSetting { s_id : nat; s_val : value; s_src : source; s_coerce : bool }.

(** the order of precedence *)
Definition precedence : list source :=
  [SUnset; SDefault; SEnvironment; SYield; SDefaultOptions; SSubprojectDefaultOptions; SOverrideOptions; SDeprecatedRename; SCommandline].
Definition lt_source (a b : source) : Prop := exists l m n, precedence = l ++ a :: m ++ b :: n.

(** [s] is the setting of [l] that counts: none before it has a higher, none after it the same or
    a higher precedence *)
Definition winner (l : list setting) (s : setting) : Prop :=
  exists pre post, l = pre ++ s :: post
    /\ Forall (fun t => lt_source (s_src t) (s_src s) \/ s_src t = s_src s) pre
    /\ Forall (fun t => lt_source (s_src t) (s_src s)) post.

(** [settings eval p w l w']: the settings [l] are applied one after the other, and all are accepted *)
Inductive settings (eval : bytes -> option value) (p : option nat) : ws -> list setting -> ws -> Prop :=
| st_nil w : settings eval p w [] w
| st_cons w s l w1 w' fuel :
    set_option eval p fuel w (s_id s) (s_val s) (s_src s) (s_coerce s) = Done w1 true ->
    settings eval p w1 l w' -> settings eval p w (s :: l) w'.

(** strings without NUL bytes, here and in the replacements of deprecated values *)
Definition no_nul (s : bytes) : Prop := ~ In NUL s.
Definition clean (o : opt) (new_val : value) : Prop :=
  (forall s, new_val = VStr s -> no_nul s) /\ (forall d s n, depr o = Some (DValues d) -> In (s, Some n) d -> no_nul n).

(** no option is renamed to [id] *)
Definition not_renamed_to (p : option nat) (w : ws) (id : nat) : Prop :=
  forall o n, In o (heap w) -> depr o = Some (DRename n) -> get_option w p n <> Some id.

(** no option is deprecated in favour of another *)
Definition no_renames (w : ws) : Prop := forall o n, In o (heap w) -> depr o <> Some (DRename n).
(** no value is deprecated in favour of two others *)
Definition one_replacement (o : opt) : Prop :=
  forall d s a b, depr o = Some (DValues d) -> In (s, Some a) d -> In (s, Some b) d -> a = b.
(** the last element of a list with a property *)
Definition last_with {A} (P : A -> Prop) (l : list A) (x : A) : Prop :=
  exists a b, l = a ++ x :: b /\ P x /\ Forall (fun y => ~ P y) b.
(** the option [id] is known to a project under the name [k] only *)
Definition only_name (w : ws) (pr : project) (k : bytes) (id : nat) : Prop :=
  index (popts pr) k = Some id /\ forall k', index (popts pr) k' = Some id \/ index (glob w) k' = Some id -> k' = k.

(** [o] yields to the option [po] of the main project with the same name and type *)
Definition yields (w : ws) (o po : opt) : Prop :=
  yield o = true /\ exists pid, get_option w (Some 0) (name o) = Some pid /\ nth_error (heap w) pid = Some po /\ type po = type o.

(** ** what can be done to options *)
Section Reach.
Variable eval : bytes -> option value.
Inductive reach : ws -> Prop :=
| r_init : reach (mkWs [] [] [] [])
| r_project w sn cn : reach w -> reach (mkWs (heap w) (glob w) (projects w ++ [mkProject sn cn []]) (overrides w))
| r_declare w p d w' ok : reach w -> d_value d <> Some VDisabler -> (forall l, d_choices d = Some l -> ~ In VDisabler l) ->
    declare w p d = Done w' ok -> reach w'
| r_set fuel w p id v s c w' ok : reach w -> v <> VDisabler -> set_option eval p fuel w id v s c = Done w' ok -> reach w'
| r_extend w id l s w' ok o : reach w -> nth_error (heap w) id = Some o -> choices o = None ->
    extend_array_option w id l s = Done w' ok -> reach w'
| r_cmdline w s w' ok : reach w -> cmdline_option w s = Done w' ok -> reach w'
| r_overrides fuel w p w' ok : reach w -> setup_overrides eval fuel w p 0 true = Done w' ok -> reach w'
| r_yield fuel w p l w' ok : reach w -> set_yielding eval fuel w p l = Done w' ok -> reach w'
| r_default_options fuel w p sub l w' ok : reach w -> default_options eval fuel w p sub l = Done w' ok -> reach w'
| r_override_options fuel w p l w' ok res : reach w -> override_options eval fuel w p l [] = (Done w' ok, res) -> reach w'.
End Reach.
