(** Model of how dependency() finds a dependency: functions/kernel/dependency.c 53-690 (func_dependency, dependency_iter,
    handle_special_dependency, get_dependency, handle_dependency_fallback, get_dependency_pkgconfig), subproject()
    (functions/kernel/subproject.c 83-169) as it is used for fallbacks, and meson.override_dependency (functions/meson.c 239-278).
    Simplifications: what pkg-config knows and what a subproject does when it is configured are given by a [world] that does
    not change; a subproject's overrides and variables are what it sets itself (subprojects it configures in turn are part of
    it); all lookups are made by one project, so there is one cache; include_type, method (auto is used for all) and messages
    are left out. *)
From Verif Require Import Base M_Version M_Feature.

Inductive lmode := LDefault | LStatic | LShared.
Definition not_shared (m : lmode) : bool := match m with LShared => false | _ => true end.
Definition not_static (m : lmode) : bool := match m with LStatic => false | _ => true end.
(** where a dependency object comes from *)
Inductive origin := FromSystem (name : bytes) (static : bool) | Declared (id : bytes) | Threads | Frameworks (modules : list bytes) | Nowhere (name : bytes).
(** struct obj_dependency: origin, version (0 is [None]) and dep_flag_found *)
Record dep := { dp_from : origin; dp_version : option bytes; dp_found : bool }.
Inductive value := VDep (d : dep) | VOther.
(** what a subproject does when it is configured: whether it succeeds, its version, the dependencies it overrides and its variables *)
Record sub := { s_ok : bool; s_version : bytes; s_static : list (bytes * dep); s_shared : list (bytes * dep); s_vars : list (bytes * value) }.
Inductive wrap_mode := Nopromote | Nodownload | Nofallback | Forcefallback.
Record world := {
  pkg : bytes -> bool -> option bytes;                   (* pkg-config: name, static; the version if it is known *)
  subs : bytes -> list bytes -> option sub;              (* subprojects: name, default options; [None]: there is none *)
  wrap : wrap_mode; force_for : list bytes;              (* the options wrap_mode and force_fallback_for *)
  provides : list (bytes * list bytes);                  (* [provide] sections of wrap files: dependency, fallback *)
  darwin : bool }.
(** what is done outside *)
Inductive event := AskPkg (n : bytes) | Configure (n : bytes) (opts : list bytes).
Record st := { c_static : list (bytes * dep); c_shared : list (bytes * dep);     (* the cache of the project *)
               o_static : list (bytes * dep); o_shared : list (bytes * dep);     (* overrides *)
               configured : list (bytes * list (bytes * value));                 (* subprojects and their variables *)
               events : list event }.
Inductive out (A : Type) := Ok (a : A) | Err | Crash.
Arguments Ok {A}. Arguments Err {A}. Arguments Crash {A}.

(** obj_dict_index, obj_dict_set (M_Dict models these; here dictionaries are lists in which the first entry counts) *)
Fixpoint look {A} (n : bytes) (l : list (bytes * A)) : option A :=
  match l with [] => None | (k, v) :: l' => if beqb n k then Some v else look n l' end.
Definition set {A} (n : bytes) (v : A) (l : list (bytes * A)) : list (bytes * A) := (n, v) :: l.
Definition mem (n : bytes) (l : list bytes) : bool := existsb (beqb n) l.

Section WORLD.
Variable w : world.
(** arguments of dependency() that do not change during a lookup *)
Record args := { a_names : list bytes; a_req : requirement; a_versions : option (list bytes); a_modules : option (list bytes); a_defaults : list bytes }.
Variable a : args.

(** dependency.c 125-138 check_dependency_version; comparing with no version aborts (get_str) *)
Definition version_ok (v : option bytes) : out bool :=
  match a_versions a with
  | None => Ok true
  | Some reqs => match v with
                 | None => Crash
                 | Some v => match version_compare v reqs with Some b => Ok b | None => Err end
                 end
  end.
(** dependency.c 105-123 check_dependency_cache: the dependency and the mode it was found with *)
Definition cache (s : st) (m : lmode) (n : bytes) : option (dep * lmode) :=
  match (if not_shared m then look n (c_static s) else None) with
  | Some d => Some (d, LStatic)
  | None => match (if not_static m then look n (c_shared s) else None) with Some d => Some (d, LShared) | None => None end
  end.
(** dependency.c 73-103 check_dependency_override *)
Fixpoint override (s : st) (m : lmode) (names : list bytes) : option (dep * lmode) :=
  match names with
  | [] => None
  | n :: names' =>
      match (if not_shared m then look n (o_static s) else None) with
      | Some d => Some (d, LStatic)
      | None => match (if not_static m then look n (o_shared s) else None) with
                | Some d => Some (d, LShared)
                | None => override s m names'
                end
      end
  end.
Definition note (e : event) (s : st) : st :=
  {| c_static := c_static s; c_shared := c_shared s; o_static := o_static s; o_shared := o_shared s; configured := configured s; events := events s ++ [e] |}.
(** subproject.c 83-169 subproject(), with a requirement other than skip: whether it is found *)
Definition subproject (s : st) (n : bytes) (opts : list bytes) : st * bool :=
  match look n (configured s) with
  | Some _ => (s, true)                                                       (* 88-91 *)
  | None =>
      match subs w n opts with
      | None => (s, false)                                                    (* 113-120 *)
      | Some sp =>
          let s1 := note (Configure n opts) s in
          let s2 := {| c_static := c_static s1; c_shared := c_shared s1; o_static := s_static sp ++ o_static s1; o_shared := s_shared sp ++ o_shared s1;
                       configured := configured s1; events := events s1 |} in (* 129 *)
          let good := match a_versions a with
                      | None => true
                      | Some reqs => match version_compare (s_version sp) reqs with
                                     | None => false
                                     | Some b => b || match a_req a with RRequired => false | _ => true end   (* 142-149 *)
                                     end
                      end in
          if s_ok sp && good
          then ({| c_static := c_static s2; c_shared := c_shared s2; o_static := o_static s2; o_shared := o_shared s2;
                   configured := set n (s_vars sp) (configured s2); events := events s2 |}, true)
          else (s2, false)
      end
  end.
(** the options a fallback is configured with: dependency.c 163-186 *)
Definition fallback_options (m : lmode) : list bytes :=
  match m with
  | LDefault => a_defaults a
  | _ => let o := B (match m with LStatic => "default_library=static" | _ => "default_library=shared" end) in
         if mem o (a_defaults a) then a_defaults a else a_defaults a ++ [o]
  end.
(** dependency.c 140-216 handle_dependency_fallback: the dependency, and the mode *)
Definition fallback (s : st) (m : lmode) (fb : list bytes) : st * out (option (dep * lmode)) :=
  match wrap w with
  | Nofallback => (s, Ok None)                                                (* 143-145 *)
  | _ =>
      let go n var :=
        let '(s', found) := subproject s n (fallback_options m) in
        if found
        then match var with
             | Some v => match look v (match look n (configured s') with Some vars => vars | None => [] end) with
                         | Some (VDep d) => (s', Ok (Some (d, m)))            (* 196-200 *)
                         | _ => (s', Ok None)
                         end
             | None => (s', Ok (override s' m (a_names a)))                   (* 201-206 *)
             end
        else (s', Ok None) in
      match fb with
      | [n] => go n None
      | [n; v] => go n (Some v)
      | _ => (s, Err)                                                         (* 156-158 *)
      end
  end.
(** dependency.c 218-252 get_dependency_pkgconfig *)
Definition system (s : st) (m : lmode) (n : bytes) : st * out (option (dep * lmode)) :=
  let static := match m with LStatic => true | _ => false end in
  let s' := note (AskPkg n) s in
  match pkg w n static with
  | None => (s', Ok None)
  | Some v => match version_ok (Some v) with
              | Ok true => (s', Ok (Some ({| dp_from := FromSystem n static; dp_version := Some v; dp_found := true |}, m)))
              | Ok false => (s', Ok None)
              | Err => (s', Err)
              | Crash => (s', Crash)
              end
  end.
(** the part of struct dep_lookup_ctx that a lookup changes: lib_mode and fallback *)
Record ctx := { x_mode : lmode; x_fb : option (list bytes) }.
(** what a lookup finds: the dependency, the mode, whether it is from the cache *)
Record hit := { h_dep : dep; h_mode : lmode; h_cached : bool }.
Definition to_hit (r : out (option (dep * lmode))) : out (option hit) :=
  match r with
  | Ok (Some (d, m)) => Ok (Some {| h_dep := d; h_mode := m; h_cached := false |})
  | Ok None => Ok None | Err => Err | Crash => Crash
  end.
(** dependency.c 254-330 get_dependency; [allowed] is fallback_allowed, [only] is fallback_only *)
Definition get (allowed only : bool) (n : bytes) (s : st) (x : ctx) : st * ctx * out (option hit) :=
  match cache s (x_mode x) n with
  | Some (d, m) =>                                                            (* 257-276 *)
      (s, {| x_mode := m; x_fb := x_fb x |},
       match version_ok (dp_version d) with
       | Ok true => Ok (Some {| h_dep := d; h_mode := m; h_cached := true |})
       | Ok false => Ok None
       | Err => Err
       | Crash => Crash
       end)
  | None =>
      match override s (x_mode x) (a_names a) with
      | Some (d, m) => (s, {| x_mode := m; x_fb := x_fb x |}, Ok (Some {| h_dep := d; h_mode := m; h_cached := false |}))   (* 279-281 *)
      | None =>
          let fb := match x_fb x with
                    | Some f => Some f
                    | None => match look n (provides w) with
                              | Some f => Some f                              (* 286-292 *)
                              | None => if allowed then Some [n] else None    (* 295-298 *)
                              end
                    end in
          let x' := {| x_mode := x_mode x; x_fb := fb |} in
          match fb with
          | Some [] => (s, x', Crash)                                         (* 304: obj_array_index *)
          | Some ((fn :: _) as f) =>
              let force := match wrap w with Forcefallback => true | _ => false end || mem n (force_for w)
                           || match look fn (configured s) with Some _ => true | None => false end in   (* 306-309 *)
              if force || only
              then let '(s', r) := fallback s (x_mode x) f in (s', x', to_hit r)          (* 313-316 *)
              else let '(s', r) := system s (x_mode x) n in
                   match r with
                   | Ok None => let '(s'', r') := fallback s' (x_mode x) f in (s'', x', to_hit r')   (* 322-326 *)
                   | _ => (s', x', to_hit r)
                   end
          | None => let '(s', r) := system s (x_mode x) n in (s', x', to_hit r)
          end
      end
  end.
Definition plain (d : dep) (m : lmode) : out (option hit) := Ok (Some {| h_dep := d; h_mode := m; h_cached := false |}).
(** dependency.c 343-399 handle_special_dependency, 401-427 dependency_iter *)
Definition one_name (allowed only : bool) (n : bytes) (s : st) (x : ctx) : st * out (option hit) :=
  if beqb n (B "threads") then (s, plain {| dp_from := Threads; dp_version := None; dp_found := true |} (x_mode x))
  else if beqb n (B "curses") then
    let '(s1, x1, r) := get allowed only (B "ncurses") s x in
    match r with
    | Ok None => let '(s2, _, r2) := get allowed only (B "ncurses") s1 x1 in (s2, r2)
    | _ => (s1, r)
    end
  else if beqb n (B "appleframeworks") then
    match a_modules a with
    | None => (s, Err)
    | Some ms => (s, plain (if darwin w then {| dp_from := Frameworks ms; dp_version := None; dp_found := true |}
                            else {| dp_from := Nowhere []; dp_version := None; dp_found := false |}) (x_mode x))
    end
  else if beqb n [] then
    match a_req a with RRequired => (s, Err) | _ => (s, plain {| dp_from := Nowhere []; dp_version := None; dp_found := false |} (x_mode x)) end
  else let '(s', _, r) := get allowed only n s x in (s', r).
(** obj_array_foreach over the names with dependency_iter: the first that is found *)
Fixpoint try_names (allowed only : bool) (names : list bytes) (s : st) (x : ctx) : st * out (option hit) :=
  match names with
  | [] => (s, Ok None)
  | n :: names' => let '(s', r) := one_name allowed only n s x in
                   match r with Ok None => try_names allowed only names' s' x | _ => (s', r) end
  end.
(** dependency.c 429-443 set_dependency_cache_iter, for all names *)
Fixpoint remember (names : list bytes) (m : lmode) (d : dep) (s : st) : st :=
  match names with
  | [] => s
  | n :: names' =>
      remember names' m d
        {| c_static := if not_shared m then set n d (c_static s) else c_static s; c_shared := if not_static m then set n d (c_shared s) else c_shared s;
           o_static := o_static s; o_shared := o_shared s; configured := configured s; events := events s |}
  end.
End WORLD.
(** the keyword arguments of dependency() *)
Record call := { k_names : list bytes; k_required : option kwarg; k_version : option (list bytes); k_static : option bool; k_modules : option (list bytes);
                 k_fallback : option (list bytes); k_allow : option bool; k_defaults : list bytes; k_disabler : bool }.
Inductive result := RDep (d : dep) | RDisabler.
(** dependency.c 566-575: whether a fallback is allowed *)
Definition may_fall_back (k : call) (r : requirement) : bool :=
  match k_allow k with
  | Some b => b
  | None => match r with RRequired => true | _ => match k_fallback k with Some (_ :: _) => true | _ => false end end
  end.
(** dependency.c 445-690 func_dependency; [g] is the value of auto_features *)
Definition dependency (w : world) (g : option state) (k : call) (s : st) : st * out result :=
  match k_names k with
  | [] => (s, Err)
  | first :: _ =>
      match coerce_requirement g (k_required k) with
      | None => (s, Err)
      | Some RSkip => (s, Ok (RDep {| dp_from := Nowhere first; dp_version := None; dp_found := false |}))   (* 549-554 *)
      | Some r =>
          let m := match k_static k with Some true => LStatic | Some false => LShared | None => LDefault end in
          let allowed := may_fall_back k r in
          let fb := if allowed then k_fallback k else None in
          let a := {| a_names := k_names k; a_req := r; a_versions := k_version k; a_modules := k_modules k; a_defaults := k_defaults k |} in
          let x := {| x_mode := m; x_fb := fb |} in
          let '(s1, r1) := try_names w a false false (k_names k) s x in                                     (* 606-608 *)
          let '(s2, r2) := match r1 with
                           | Ok None => if allowed then try_names w a true true (k_names k) s1 x else (s1, Ok None)   (* 609-615 *)
                           | _ => (s1, r1)
                           end in
          match r2 with
          | Err => (s2, Err)
          | Crash => (s2, Crash)
          | Ok None => match r with
                       | RRequired => (s2, Err)
                       | _ => (s2, Ok (if k_disabler k then RDisabler else RDep {| dp_from := Nowhere (last (k_names k) first); dp_version := None; dp_found := false |}))
                       end
          | Ok (Some h) =>
              ((if dp_found (h_dep h) && negb (h_cached h) then remember (k_names k) (h_mode h) (h_dep h) s2 else s2), Ok (RDep (h_dep h)))
          end
      end
  end.
(** meson.c 239-278 meson.override_dependency; [static] as given, or whether default_library is static *)
Definition override_dependency (n : bytes) (d : dep) (static : bool) (s : st) : st :=
  {| c_static := c_static s; c_shared := c_shared s; o_static := if static then set n d (o_static s) else o_static s;
     o_shared := if static then o_shared s else set n d (o_shared s); configured := configured s; events := events s |}.
