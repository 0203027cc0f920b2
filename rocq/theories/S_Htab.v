(** What a history of node-table calls means: the last value stored for each key. *)
From Verif Require Import Base M_Htab.
Definition htspec_step {V} (m : bytes -> option V) (o : htop V) : bytes -> option V :=
  match o with
  | TPut _ => m
  | TStore k v => fun k' => if beqb k k' then Some v else m k'
  end.
Definition htspec {V} (ops : list (htop V)) : bytes -> option V := fold_left htspec_step ops (fun _ => None).
Definition mentioned {V} (ops : list (htop V)) (k : bytes) : Prop :=
  exists o, In o ops /\ match o with TPut k' => k' = k | TStore k' _ => k' = k end.
