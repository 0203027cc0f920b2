(** What the documentation says of feature options. *)
From Verif Require Import Base M_Feature.

(** The state a build file sees: that of the option auto_features if the feature is auto. *)
Inductive seen (global : option state) : state -> state -> Prop :=
| seen_enabled : seen global Enabled Enabled
| seen_disabled : seen global Disabled Disabled
| seen_global s : global = Some s -> seen global Auto s
| seen_auto : global = None -> seen global Auto Auto.

(** [documented s m r]: a feature that is in state [s] is in state [r] after [m], or the call is
    an error ([None]) *)
Inductive documented : state -> method -> option state -> Prop :=
| d_disable_auto s c : documented s (DisableAutoIf c) (Some match s, c with Auto, true => Disabled | _, _ => s end)
| d_enable_auto s c : documented s (EnableAutoIf c) (Some match s, c with Auto, true => Enabled | _, _ => s end)
| d_enable_error : documented Disabled (EnableIf true) None
| d_enable s : s <> Disabled -> documented s (EnableIf true) (Some Enabled)
| d_enable_not s : documented s (EnableIf false) (Some s)
| d_disable_error : documented Enabled (DisableIf true) None
| d_disable s : s <> Enabled -> documented s (DisableIf true) (Some Disabled)
| d_disable_not s : documented s (DisableIf false) (Some s)
| d_require s : documented s (Require true) (Some s)
| d_require_error : documented Enabled (Require false) None
| d_require_not s : s <> Enabled -> documented s (Require false) (Some Disabled).

Inductive documented_chain : state -> list method -> option state -> Prop :=
| dc_nil s : documented_chain s [] (Some s)
| dc_error s m l : documented s m None -> documented_chain s (m :: l) None
| dc_cons s m t l r : documented s m (Some t) -> documented_chain t l r -> documented_chain s (m :: l) r.
