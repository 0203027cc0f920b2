(** C73: variables of build edges (src/external/samurai/env.c). *)
From Verif Require Import Base M_Tree S_Tree L_Tree M_Escape M_Env S_Env L_Env.

(** Every set of definitions can be represented (no insertion fails). *)
Theorem C73_definitions_are_stored : forall (d : defs),
  exists e, e_in e = inputs d /\ e_inimpidx e = length (inputs d) /\ e_out e = outputs d /\ e_outimpidx e = length (outputs d) /\
    mkscope (own d) = Some (e_own e) /\ mkrule (rule d) = Some (e_rulevars e) /\
    Forall2 (fun bs t => mkscope bs = Some t) (scopes d) (e_parents e).
Proof.
  intros d.
  assert (X : forall V (kvs : list (bytes * V)), exists t, insert_all Leaf kvs = Some t).
  { intros V kvs. destruct (insert_all_spec kvs Leaf (fun _ => None)) as (t & E & _); [split; exact I|constructor|reflexivity|]. eauto. }
  destruct (X _ (own d)) as [o Ho]. destruct (X _ (rule d)) as [r Hr].
  assert (Y : exists ts, Forall2 (fun bs t => mkscope bs = Some t) (scopes d) ts).
  { induction (scopes d) as [|s ss [ts IH]]; [exists []; constructor|]. destruct (X _ s) as [t Ht]. exists (t :: ts). now constructor. }
  destruct Y as [ts Hts].
  exists (Edge (inputs d) (length (inputs d)) (outputs d) (length (outputs d)) o r ts). cbn. auto 10.
Qed.

(** An edge whose trees hold the definitions [d] evaluates a variable to [v] exactly if [v] is
    its value according to the definitions. *)
Theorem C73_lookup : forall d e escape var v,
  firstn (e_inimpidx e) (e_in e) = inputs d -> firstn (e_outimpidx e) (e_out e) = outputs d ->
  mkscope (own d) = Some (e_own e) -> mkrule (rule d) = Some (e_rulevars e) ->
  Forall2 (fun bs t => mkscope bs = Some t) (scopes d) (e_parents e) ->
  (edgevar e escape var = Val v <-> value (if escape then nodepath else fun p => p) d var v).
Proof.
  intros d e escape var v H1 H2 H3 H4 H5. pose proof (edgevar_total d e escape (Build_represents d e H1 H2 H3 H4 H5) var) as T.
  split.
  - intros E. now rewrite E in T.
  - intros V. destruct (edgevar e escape var) as [v'|c|]; [|exfalso; now apply (value_not_circular _ _ _ _ V)|contradiction].
    f_equal. exact (proj1 (value_unique _ d) var v' T v V).
Qed.

(** A variable is reported as circular exactly if its evaluation leads to a rule variable that is
    defined in terms of itself; evaluation always ends. *)
Theorem C73_cycles_are_reported : forall d e escape var,
  firstn (e_inimpidx e) (e_in e) = inputs d -> firstn (e_outimpidx e) (e_out e) = outputs d ->
  mkscope (own d) = Some (e_own e) -> mkrule (rule d) = Some (e_rulevars e) ->
  Forall2 (fun bs t => mkscope bs = Some t) (scopes d) (e_parents e) ->
  ((exists c, edgevar e escape var = Cycle c) <-> circular d var) /\
  edgevar e escape var <> Fuel.
Proof.
  intros d e escape var H1 H2 H3 H4 H5. pose proof (edgevar_total d e escape (Build_represents d e H1 H2 H3 H4 H5) var) as T.
  destruct (edgevar e escape var) as [v|c|]; [| |contradiction]; (split; [|discriminate]); split.
  - intros [c H]. discriminate.
  - intros C. exfalso. now apply (value_not_circular _ _ _ _ T).
  - auto.
  - eauto.
Qed.

(** A rule compiles with flags that an edge may override; another mentions itself. *)
Definition ex_defs : defs := {|
  inputs := [B "a b.c"]; outputs := [B "a.o"];
  own := [(B "flags", B "-O0"); (B "flags", B "-O2")];
  rule := [(B "command", [PVar (B "cc"); PStr (B " "); PVar (B "flags"); PStr (B " -c "); PVar (B "in"); PVar (B "none")]);
           (B "flags", [PStr (B "-g")]); (B "x", [PVar (B "y")]); (B "y", [PStr (B "1"); PVar (B "x")])];
  scopes := [[(B "other", B "1")]; [(B "cc", B "gcc"); (B "cc", B "clang"); (B "flags", B "-O3")]] |}.

Definition ex_edge : option edge :=
  match mkscope (own ex_defs), mkrule (rule ex_defs), mkscope (nth 0 (scopes ex_defs) []), mkscope (nth 1 (scopes ex_defs) []) with
  | Some o, Some r, Some s1, Some s2 => Some (Edge (inputs ex_defs) 1 (outputs ex_defs) 1 o r [s1; s2])
  | _, _, _, _ => None
  end.
Example C73_example :
  match ex_edge with
  | Some e => edgevar e true (B "command") = Val (Some (B "clang -O2 -c 'a b.c'")) /\
              edgevar e false (B "command") = Val (Some (B "clang -O2 -c a b.c")) /\
              edgevar e true (B "x") = Cycle (B "x") /\ edgevar e true (B "nothing") = Val None
  | None => False
  end.
Proof. vm_compute. auto. Qed.

Print Assumptions C73_definitions_are_stored.
Print Assumptions C73_lookup.
Print Assumptions C73_cycles_are_reported.
