(** Feature options: src/functions/feature_opt.c, src/lang/object.c 136-163, src/options.c 175-194,
    src/coerce.c 282-319. *)
From Verif Require Import Base.

(** enum feature_opt_state, include/lang/object.h 100-104. *)
Inductive state := Auto | Enabled | Disabled.
Definition state_eqb (a b : state) : bool :=
  match a, b with Auto, Auto | Enabled, Enabled | Disabled, Disabled => true | _, _ => false end.

(** get_obj_feature_opt, src/lang/object.c 136-156; [global] is the value of the option
    auto_features, if there are global options. *)
Definition get (global : option state) (fo : state) : state :=
  match fo with
  | Auto => match global with Some s => s | None => Auto end
  | _ => fo
  end.

(** feature_opt_common and func_feature_opt_allowed, src/functions/feature_opt.c 14-57. *)
Definition is_auto (g : option state) (fo : state) : bool := state_eqb (get g fo) Auto.
Definition is_enabled (g : option state) (fo : state) : bool := state_eqb (get g fo) Enabled.
Definition is_disabled (g : option state) (fo : state) : bool := state_eqb (get g fo) Disabled.
Definition allowed (g : option state) (fo : state) : bool :=
  let s := get g fo in state_eqb s Auto || state_eqb s Enabled.

(** The methods that return a feature; [None] is an error of the build file. *)
Inductive method := DisableAutoIf (c : bool) | EnableAutoIf (c : bool) | EnableIf (c : bool) | DisableIf (c : bool) | Require (c : bool).

(** func_feature_opt_disable_auto_if, src/functions/feature_opt.c 59-80. *)
Definition disable_auto_if (g : option state) (fo : state) (c : bool) : option state :=
  let s := get g fo in
  if negb c then Some fo
  else if state_eqb s Disabled || state_eqb s Enabled then Some fo
  else Some Disabled.

(** func_feature_opt_enable_auto_if, src/functions/feature_opt.c 82-103. *)
Definition enable_auto_if (g : option state) (fo : state) (c : bool) : option state :=
  let s := get g fo in
  if negb c then Some fo
  else if state_eqb s Disabled || state_eqb s Enabled then Some fo
  else Some Enabled.

(** func_feature_opt_enable_if, src/functions/feature_opt.c 105-139. *)
Definition enable_if (g : option state) (fo : state) (c : bool) : option state :=
  let s := get g fo in
  if negb c then Some fo
  else if state_eqb s Disabled then None
  else Some Enabled.

(** func_feature_opt_disable_if, src/functions/feature_opt.c 141-175. *)
Definition disable_if (g : option state) (fo : state) (c : bool) : option state :=
  let s := get g fo in
  if negb c then Some fo
  else if state_eqb s Enabled then None
  else Some Disabled.

(** func_feature_opt_require, src/functions/feature_opt.c 177-210. *)
Definition require (g : option state) (fo : state) (c : bool) : option state :=
  let s := get g fo in
  if negb c then (if state_eqb s Enabled then None else Some Disabled)
  else Some fo.

Definition call (g : option state) (fo : state) (m : method) : option state :=
  match m with
  | DisableAutoIf c => disable_auto_if g fo c
  | EnableAutoIf c => enable_auto_if g fo c
  | EnableIf c => enable_if g fo c
  | DisableIf c => disable_if g fo c
  | Require c => require g fo c
  end.

(** A chain of calls, f.m1(..).m2(..)... *)
Fixpoint chain (g : option state) (fo : state) (l : list method) : option state :=
  match l with
  | [] => Some fo
  | m :: l => match call g fo m with Some fo => chain g fo l | None => None end
  end.

(** coerce_feature_opt, src/options.c 175-194. *)
Definition coerce_feature (s : bytes) : option state :=
  if beqb s (B "auto") then Some Auto
  else if beqb s (B "enabled") then Some Enabled
  else if beqb s (B "disabled") then Some Disabled
  else None.

(** enum requirement_type; coerce_requirement, src/coerce.c 282-319. *)
Inductive requirement := RSkip | RRequired | RAuto.
Inductive kwarg := KBool (b : bool) | KFeature (fo : state) | KOther.
Definition coerce_requirement (g : option state) (kw : option kwarg) : option requirement :=
  match kw with
  | Some (KBool b) => Some (if b then RRequired else RAuto)
  | Some (KFeature fo) =>
      Some match get g fo with Disabled => RSkip | Enabled => RRequired | Auto => RAuto end
  | Some KOther => None
  | None => Some RRequired
  end.
