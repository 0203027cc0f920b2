(** A finite map, as a function from keys to optional values, and what a history of
    set / unset / clear calls means for it. *)
From Verif Require Import Base M_Hash.

Section Spec.
Context {K V : Type}.
Variable eqb : K -> K -> bool.

Definition fmap : Type := K -> option V.

Definition spec_step (m : fmap) (o : hop K V) : fmap :=
  match o with
  | HSet k v => fun k' => if eqb k k' then Some v else m k'
  | HUnset k => fun k' => if eqb k k' then None else m k'
  | HClear => fun _ => None
  end.

Definition spec_run (ops : list (hop K V)) : fmap := fold_left spec_step ops (fun _ => None).
End Spec.
