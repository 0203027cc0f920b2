(** What evaluation does to scopes and objects. *)
From Verif Require Import Base M_Interp S_Interp L_Interp L_Mono L_Effects.

Definition last_scope (s : state) : option nat := hd_error (rev (nth (cur s) (stacks s) [])).

Lemma scope_upd_same : forall s i e, i < length (scopes s) -> nth i (upd i e (scopes s)) [] = e.
Proof. intros s i e L. apply nth_error_nth. now apply nth_error_upd_same. Qed.
Lemma nth_upd_other : forall {A} (l : list A) i j x d, i <> j -> nth j (upd i x l) d = nth j l d.
Proof.
  intros A l i j x d N. destruct (nth_error l j) as [y|] eqn:E.
  - rewrite (nth_error_nth l j d E). apply nth_error_nth. now rewrite nth_error_upd_other.
  - rewrite (nth_overflow l d), (nth_overflow (upd i x l) d); auto; rewrite ?upd_length; now apply nth_error_None.
Qed.
Lemma upd_app_l : forall {A} (l m : list A) i x, i < length l -> upd i x (l ++ m) = upd i x l ++ m.
Proof. induction l as [|y l IH]; intros m [|i] x H; cbn in *; try lia; [reflexivity|]. f_equal. apply IH. lia. Qed.
Lemma upd_upd : forall {A} (l : list A) i x y, upd i x (upd i y l) = upd i x l.
Proof. induction l as [|z l IH]; intros [|i] x y; cbn; auto. f_equal. apply IH. Qed.
Lemma upd_nth : forall {A} (l : list A) i d, i < length l -> upd i (nth i l d) l = l.
Proof. induction l as [|z l IH]; intros [|i] d H; cbn in *; try lia; auto. f_equal. apply IH. lia. Qed.
Lemma in_upd : forall {A} (l : list A) i x y, In y (upd i x l) -> y = x \/ In y l.
Proof.
  induction l as [|z l IH]; intros [|i] x y H; cbn in *; auto; destruct H as [<-|H]; auto.
  destruct (IH _ _ _ H); auto.
Qed.
Lemma in_stacks : forall (s : state) j i, In i (nth j (stacks s) []) -> In (nth j (stacks s) []) (stacks s) .
Proof.
  intros s j i I. destruct (Nat.lt_ge_cases j (length (stacks s))) as [L|L]; [now apply nth_In|].
  rewrite nth_overflow in I by lia. destruct I.
Qed.

Lemma assign_local_inv : forall x o s, 
  match assign_local x o s with
  | Ok s' _ => exists i, last_scope s = Some i /\ In i (nth (cur s) (stacks s) []) /\
      s' = with_scopes (upd i (dict_set (scope_at s i) x o) (scopes s)) s
  | Err _ => False | Crash => True | OutOfFuel => False end.
Proof.
  intros x o s. unfold assign_local, last_scope. destruct (rev (nth (cur s) (stacks s) [])) as [|i l] eqn:E; [exact I|].
  cbn. exists i. repeat split; auto. rewrite in_rev, E. now left.
Qed.

(** ** Expressions that only compute *)
Section Quiet.
Variable other : bytes -> option builtin.
Variable method : obj -> bytes -> option builtin.
Hypothesis Hother : forall f b, other f = Some b -> tame b.
Hypothesis Hmethod : forall x m b, method x m = Some b -> tame b.

Definition grows (s s' : state) : Prop := exists l, heap s' = heap s ++ l.
Lemma grows_nth : forall s s' o x, grows s s' -> nth_error (heap s) o = Some x -> nth_error (heap s') o = Some x.
Proof.
  intros s s' o x [l E] H. rewrite E, nth_error_app1; [exact H|]. apply nth_error_Some. congruence.
Qed.
Lemma denotes_sub : forall h h' v o, (forall o x, nth_error h o = Some x -> nth_error h' o = Some x) ->
  denotes h o v -> denotes h' o v.
Proof.
  intros h h'. induction v as [b|n|t|l IH|l IH|o'] using value_ind2; intros o G D; apply den_inv in D;
    destruct D as (x & E & D); apply (den_intro _ _ _ x (G _ _ E)); cbn in *; auto.
  - destruct D as (a & -> & F). exists a. split; [reflexivity|]. clear E.
    induction F as [|y z a l Hy F IHf]; constructor.
    + inversion IH; subst. auto.
    + apply IHf. now inversion IH.
  - destruct D as (a & -> & N & F). exists a. split; [reflexivity|]. split; [exact N|]. clear E N.
    induction F as [|y z a l [Ey Hy] F IHf]; constructor.
    + inversion IH; subst. auto.
    + apply IHf. now inversion IH.
Qed.
Lemma denotes_grows : forall s s' o v, grows s s' -> denotes (heap s) o v -> denotes (heap s') o v.
Proof. intros s s' o v G. apply denotes_sub. intros o' x. now apply grows_nth. Qed.

Definition Rq (s s' : state) : Prop :=
  grows s s' /\ scopes s' = scopes s /\ stacks s' = stacks s /\ cur s' = cur s /\ an s' = an s.
Lemma grows_refl : forall s s', heap s' = heap s -> grows s s'.
Proof. intros s s' E. exists []. now rewrite app_nil_r. Qed.
Lemma grows_trans : forall s1 s2 s3, grows s1 s2 -> grows s2 s3 -> grows s1 s3.
Proof. intros s1 s2 s3 [l E] [m F]. exists (l ++ m). now rewrite F, E, app_assoc. Qed.
Lemma grows_func : forall s s' o ps r body st, grows s s' -> obj_at s o = OFunc ps r body st -> obj_at s' o = OFunc ps r body st.
Proof.
  intros s s' o ps r body st G E. apply obj_at_nth. eapply grows_nth; [exact G|].
  unfold obj_at in E. destruct (nth_error (heap s) o) as [x|] eqn:N.
  - rewrite (nth_error_nth _ _ _ N) in E. congruence.
  - rewrite nth_overflow in E by (now apply nth_error_None). discriminate.
Qed.

Lemma quiet_pres : forall fuel e s s' o, quiet other e -> interp other method fuel (NExpr e) s = Ok s' o -> Rq s s'.
Proof.
  intros fuel e s s' o Q H.
  assert (P := interp_pres other method Hother Hmethod false false false false (fun _ => True) Rq).
  specialize (P ltac:(intros s0 s1 _ E [C|C]; [discriminate|]; unfold post, Rq; inversion E; split; [exact I|]; repeat split; auto; now apply grows_refl)).
  specialize (P ltac:(intros s1 s2 s3 (G1 & E1 & F1 & K1 & A1) (G2 & E2 & F2 & K2 & A2); repeat split; try congruence; eapply grows_trans; eassumption)).
  specialize (P ltac:(intros s0 l _ _; split; [exact I|]; repeat split; now exists l)).
  specialize (P ltac:(intros s0 s1 o0 ps r body st _ (G & _) E; eapply grows_func; eassumption)).
  do 7 (specialize (P ltac:(intros; discriminate))).
  specialize (P fuel (NExpr e) Q s I). rewrite H in P. apply P.
Qed.
End Quiet.

(** ** Statements without += *)
Section Plain.
Variable other : bytes -> option builtin.
Variable method : obj -> bytes -> option builtin.
Hypothesis Hother : forall f b, other f = Some b -> tame b.
Hypothesis Hmethod : forall x m b, method x m = Some b -> tame b.
Notation interp := (interp other method).
Notation plain := (plain other).

Definition frame (s s' : state) : Prop :=
  (exists l, stacks s' = stacks s ++ l) /\ cur s' = cur s /\ length (scopes s) <= length (scopes s').
Definition Ip (s : state) : Prop := well_formed s /\ plain_functions other s.
Definition Rp (s s' : state) : Prop :=
  grows s s' /\ frame s s' /\
  (forall i, i < length (scopes s) -> last_scope s <> Some i -> scope_at s' i = scope_at s i).
(** ... and the innermost scope is unchanged too *)
Definition Rpure (s s' : state) : Prop :=
  grows s s' /\ frame s s' /\ (forall i, i < length (scopes s) -> scope_at s' i = scope_at s i).

Lemma frame_refl : forall s s', scopes s' = scopes s -> stacks s' = stacks s -> cur s' = cur s -> frame s s'.
Proof. intros s s' E F K. split; [exists []; now rewrite app_nil_r|]. split; [exact K|]. rewrite E. lia. Qed.
Lemma frame_trans : forall s1 s2 s3, frame s1 s2 -> frame s2 s3 -> frame s1 s3.
Proof.
  intros s1 s2 s3 ((l & E) & K & L) ((m & F) & K' & L'). split; [exists (l ++ m); now rewrite F, E, app_assoc|].
  split; [congruence|lia].
Qed.
Lemma frame_stack : forall s s', cur s < length (stacks s) -> frame s s' -> nth (cur s') (stacks s') [] = nth (cur s) (stacks s) [].
Proof. intros s s' L ((l & E) & K & _). rewrite K, E. now apply app_nth1. Qed.
Lemma last_scope_frame : forall s s', cur s < length (stacks s) -> frame s s' -> last_scope s' = last_scope s.
Proof. intros s s' L F. unfold last_scope. now rewrite (frame_stack s s' L F). Qed.

(* Rp is transitive on well-formed states; the closure is what the generic lemma is used with *)
Definition Rp' (s s' : state) : Prop := cur s < length (stacks s) -> Rp s s'.
Definition Rpure' (s s' : state) : Prop := cur s < length (stacks s) -> Rpure s s'.
Lemma frame_cur : forall s s', cur s < length (stacks s) -> frame s s' -> cur s' < length (stacks s').
Proof. intros s s' L ((l & E) & K & _). rewrite K, E, app_length. lia. Qed.
Lemma Rp_trans : forall s1 s2 s3, Rp' s1 s2 -> Rp' s2 s3 -> Rp' s1 s3.
Proof.
  intros s1 s2 s3 H1 H2 L. destruct (H1 L) as (G1 & F1 & U1). assert (L2 := frame_cur _ _ L F1).
  destruct (H2 L2) as (G2 & F2 & U2). split; [eapply grows_trans; eassumption|].
  split; [eapply frame_trans; eassumption|]. intros i Li N. rewrite U2; [now apply U1| |].
  - destruct F1 as (_ & _ & F1). lia.
  - now rewrite (last_scope_frame _ _ L F1).
Qed.
Lemma Rpure_trans : forall s1 s2 s3, Rpure' s1 s2 -> Rpure' s2 s3 -> Rpure' s1 s3.
Proof.
  intros s1 s2 s3 H1 H2 L. destruct (H1 L) as (G1 & F1 & U1). assert (L2 := frame_cur _ _ L F1).
  destruct (H2 L2) as (G2 & F2 & U2). split; [eapply grows_trans; eassumption|].
  split; [eapply frame_trans; eassumption|]. intros i Li. rewrite U2; [now apply U1|].
  destruct F1 as (_ & _ & F1). lia.
Qed.

Lemma core_ip : forall s s', core s' = core s -> Ip s -> Ip s'.
Proof.
  intros s s' E I. inversion E as [[E1 E2 E3 E4]]. unfold Ip, well_formed, plain_functions in *.
  now rewrite E1, E2, E3, E4.
Qed.
Lemma make_ip : forall s l, Ip s -> Forall not_func l -> Ip (with_heap (heap s ++ l) s).
Proof.
  intros s l ((W1 & W2 & W3) & P) N.
  assert (Q : forall o ps r body st, nth_error (heap s ++ l) o = Some (OFunc ps r body st) ->
    nth_error (heap s) o = Some (OFunc ps r body st)).
  { intros o ps r body st H. destruct (Nat.lt_ge_cases o (length (heap s))) as [Lo|Lo].
    - now rewrite nth_error_app1 in H.
    - rewrite nth_error_app2 in H by exact Lo. apply nth_error_In in H. rewrite Forall_forall in N.
      apply N in H. destruct H. }
  split; [split; [exact W1|split; [exact W2|]]|].
  - intros o ps r body st H. apply Q in H. eapply W3; exact H.
  - intros o ps r body st H. apply Q in H. eapply P; exact H.
Qed.
Lemma scope_ip : forall s i e, Ip s -> Ip (with_scopes (upd i e (scopes s)) s).
Proof.
  intros s i e ((W1 & W2 & W3) & P). split; [split; [exact W1|split; [|exact W3]]|exact P].
  intros st j. cbn. rewrite upd_length. apply W2.
Qed.

(** calling a function: from the state before to the state after the call *)
Lemma call_frame : forall s0 o ps r body st s1 s2,
  Ip s0 -> obj_at s0 o = OFunc ps r body st ->
  s1 = with_stacks (upd st (nth st (stacks s0) [] ++ [length (scopes s0)]) (stacks s0))
         (with_scopes (scopes s0 ++ [[]]) (with_cur st s0)) ->
  Ip s1 /\
  (Ip s2 -> Rp' s1 s2 -> forall s3,
   core s3 = core (with_cur (cur s0) (with_stacks (upd (cur s2) (removelast (nth (cur s2) (stacks s2) [])) (stacks s2)) s2)) ->
   Ip s3 /\ Rpure' s0 s3).
Proof.
  intros s0 o ps r body st s1 s2 ((W1 & W2 & W3) & P) Eo E1.
  assert (En : nth_error (heap s0) o = Some (OFunc ps r body st)).
  { unfold obj_at in Eo. destruct (nth_error (heap s0) o) as [x|] eqn:N.
    - rewrite (nth_error_nth _ _ _ N) in Eo. congruence.
    - rewrite nth_overflow in Eo by (now apply nth_error_None). discriminate. }
  assert (Lst := W3 _ _ _ _ _ En).
  set (k := length (scopes s0)) in *. set (l := nth st (stacks s0) []) in *.
  assert (Hl : forall i, In i l -> i < k) by (intros i J; eapply W2; [apply nth_In; exact Lst|exact J]).
  assert (I1 : Ip s1).
  { subst s1. split; [split; [|split]|].
    - cbn. now rewrite upd_length.
    - cbn. intros st' i J K. rewrite app_length. cbn. apply in_upd in J. destruct J as [->|J].
      + apply in_app_iff in K. destruct K as [K|[<-|[]]]; [apply Hl in K; lia|lia].
      + specialize (W2 st' i J K). lia.
    - cbn. intros. rewrite upd_length. eapply W3; eassumption.
    - exact P. }
  split; [exact I1|]. intros I2 R12 s3 C.
  assert (L1 : cur s1 < length (stacks s1)) by (apply I1).
  destruct (R12 L1) as (G & F & U). assert (F' := F). destruct F as ((m & Es) & Ec & Ls).
  assert (Ec' : cur s2 = st) by (rewrite Ec; subst s1; reflexivity).
  assert (Est : nth (cur s2) (stacks s2) [] = l ++ [k]).
  { rewrite (frame_stack s1 s2 L1 F'). subst s1. cbn. apply nth_error_nth. now apply nth_error_upd_same. }
  assert (Estacks : upd (cur s2) (removelast (nth (cur s2) (stacks s2) [])) (stacks s2) = stacks s0 ++ m).
  { rewrite Est, removelast_last, Es, Ec'. subst s1. cbn.
    rewrite upd_app_l by now rewrite upd_length. rewrite upd_upd. f_equal. now apply upd_nth. }
  rewrite Estacks in C. inversion C as [[C1 C2 C3 C4]]. cbn in C1, C2, C3, C4.
  split.
  - destruct I2 as ((V1 & V2 & V3) & P2). split; [split; [|split]|].
    + rewrite C3, C4, app_length. lia.
    + rewrite C2, C3. intros st' i J K. apply in_app_iff in J. destruct J as [J|J].
      * specialize (W2 st' i J K). subst s1. cbn in Ls. rewrite app_length in Ls. cbn in Ls. lia.
      * apply (V2 st' i); [|exact K]. rewrite Es. apply in_or_app. now right.
    + rewrite C1, C3. intros. apply V3 in H. rewrite Es, app_length in H. rewrite app_length.
      subst s1. cbn in H. rewrite upd_length in H. lia.
    + intros o' ps' r' body' st'. rewrite C1. apply P2.
  - intros L0. split; [|split].
    + destruct G as [g G]. exists g. rewrite C1, G. subst s1. reflexivity.
    + split; [exists m; exact C3|]. split; [exact C4|]. rewrite C2.
      subst s1. cbn in Ls. rewrite app_length in Ls. fold k in Ls |- *. lia.
    + intros i Li. fold k in Li. unfold scope_at. rewrite C2. change (scope_at s2 i = scope_at s0 i).
      rewrite U.
      * subst s1. unfold scope_at. cbn. now rewrite app_nth1.
      * subst s1. cbn. rewrite app_length. fold k. lia.
      * unfold last_scope. subst s1. cbn. rewrite (nth_error_nth _ _ [] (nth_error_upd_same _ _ _ Lst)).
        rewrite rev_app_distr. cbn. intros E. inversion E. lia.
Qed.

Lemma assign_local_p : forall x o, pres Ip Rp' (assign_local x o).
Proof.
  intros x o s I. assert (A := assign_local_inv x o s). destruct (assign_local x o s) as [s' []|s'| |]; auto; [|contradiction].
  destruct A as (i & La & Ii & ->). split; [now apply scope_ip|]. intros L. split; [|split].
  - now apply grows_refl.
  - split; [exists []; now rewrite app_nil_r|]. split; [reflexivity|]. cbn. rewrite upd_length. lia.
  - intros j Lj N. unfold scope_at. cbn. apply nth_upd_other. congruence.
Qed.
Lemma Rp_core : forall s s', Ip s -> core s' = core s -> post Ip Rp' s s'.
Proof.
  intros s s' I E. split; [eapply core_ip; eassumption|]. intros L. inversion E as [[E1 E2 E3 E4]].
  split; [now apply grows_refl|]. split; [now apply frame_refl|]. intros i _ _. unfold scope_at. now rewrite E2.
Qed.
Lemma Rp_make : forall s l, Ip s -> Forall not_func l -> post Ip Rp' s (with_heap (heap s ++ l) s).
Proof.
  intros s l I N. split; [now apply make_ip|]. intros L. split; [now exists l|]. split; [now apply frame_refl|]. reflexivity.
Qed.
Lemma Rp_pure : forall s s', Rpure' s s' -> Rp' s s'.
Proof. intros s s' H L. destruct (H L) as (G & F & U). split; [exact G|]. split; [exact F|]. auto. Qed.

Lemma assign_params_p : forall ps vs, pres Ip Rp' (assign_params ps vs).
Proof.
  induction ps as [|p ps IH]; intros vs; cbn [assign_params].
  - intros s I. now apply Rp_core.
  - destruct vs as [|v vs]; [intros s I; now apply Rp_core|].
    apply pres_bind; [exact Rp_trans|apply assign_local_p|intros _; apply IH].
Qed.

Lemma assign_params_no_err : forall ps vals s s', assign_params ps vals s = Err s' -> False.
Proof.
  induction ps as [|p ps IH]; intros vals s s' EA; cbn [assign_params] in EA; [discriminate|].
  destruct vals as [|v vals]; [discriminate|]. unfold bind in EA. assert (A := assign_local_inv p v s).
  destruct (assign_local p v s); try discriminate; [eapply IH; exact EA|contradiction].
Qed.

Lemma call_pure : forall (Bk : list stmt -> M nat), (forall b, Forall plain b -> pres Ip Rp' (Bk b)) ->
  forall o ps r body st vals s, Ip s -> obj_at s o = OFunc ps r body st ->
  match func_obj_call Bk ps r body st vals s with
  | Ok s' _ => post Ip Rpure' s s' | Err s' => post Ip Rpure' s s' | _ => True end.
Proof.
  intros Bk HB o ps r body st vals s I Eo. unfold func_obj_call.
  unfold bind at 1, get. unfold bind at 1, put. unfold bind at 1, push_local_scope, put.
  match goal with |- context [bind (assign_params ps vals) ?k ?x] => set (s1 := x); set (K := k) end.
  assert (CF := fun s2 => call_frame s o ps r body st s1 s2 I Eo eq_refl).
  assert (I1 : Ip s1) by (exact (proj1 (CF s1))).
  unfold bind. assert (A := assign_params_p ps vals s1 I1).
  destruct (assign_params ps vals s1) as [s2 []|s2| |] eqn:EA; auto.
  2:{ exfalso. now apply assign_params_no_err in EA. }
  unfold K. clear K. unfold bind, put. cbv beta iota zeta.
  set (s2' := with_return false 0 s2).
  assert (A' : post Ip Rp' s1 s2').
  { destruct A as [I2 R2]. destruct (Rp_core s2 s2' I2 eq_refl) as [I2' R2']. split; [exact I2'|]. eapply Rp_trans; eassumption. }
  assert (Pb : Forall plain body).
  { destruct I as [_ P]. unfold obj_at in Eo. destruct (nth_error (heap s) o) as [x|] eqn:N.
    - rewrite (nth_error_nth _ _ _ N) in Eo. subst x. eapply P; exact N.
    - rewrite nth_overflow in Eo by (now apply nth_error_None). discriminate. }
  assert (HB' := HB body Pb s2' (proj1 A')).
  destruct (Bk body s2') as [s3 a|s3| |]; auto.
  - assert (A3 : post Ip Rp' s1 s3).
    { split; [apply HB'|]. eapply Rp_trans; [apply A'|apply HB']. }
    match goal with |- context [if ?c then Ok _ _ else _] => destruct c end; (apply (proj2 (CF s3) (proj1 A3) (proj2 A3)); reflexivity).
  - assert (A3 : post Ip Rp' s1 s3).
    { split; [apply HB'|]. eapply Rp_trans; [apply A'|apply HB']. }
    apply (proj2 (CF s3) (proj1 A3) (proj2 A3)); reflexivity.
Qed.

Lemma func_p : forall f ps r body, Forall plain body ->
  pres Ip Rp' (bind scope_stack_dup (fun st => bind (make (OFunc ps r body st)) (fun o => bind (assign_local f o) (fun _ => ret o)))).
Proof.
  intros f ps r body Pb s I. unfold bind at 1, scope_stack_dup. cbv beta iota zeta.
  set (l := nth (cur s) (stacks s) []). unfold bind at 1, make.
  match goal with |- context [bind (assign_local f ?o) ?k ?x] => set (s1 := x); set (K := k); set (oo := o) end.
  assert (A1 : post Ip Rp' s s1).
  { destruct I as ((W1 & W2 & W3) & P). split; [split; [split; [|split]|]|].
    - cbn. rewrite app_length. cbn. lia.
    - cbn. intros st i J K'. rewrite app_length, map_length. apply in_app_iff in J. destruct J as [J|[<-|[]]].
      + specialize (W2 st i J K'). lia.
      + apply in_seq in K'. lia.
    - cbn. intros o ps' r' body' st H. rewrite app_length. cbn.
      destruct (Nat.lt_ge_cases o (length (heap s))) as [Lo|Lo].
      + rewrite nth_error_app1 in H by exact Lo. apply W3 in H. lia.
      + rewrite nth_error_app2 in H by exact Lo. destruct (o - length (heap s)) as [|n]; cbn in H.
        * inversion H; subst. lia.
        * destruct n; discriminate.
    - cbn. intros o ps' r' body' st H. cbn in H.
      destruct (Nat.lt_ge_cases o (length (heap s))) as [Lo|Lo].
      + rewrite nth_error_app1 in H by exact Lo. eapply P; exact H.
      + rewrite nth_error_app2 in H by exact Lo. destruct (o - length (heap s)) as [|n]; cbn in H.
        * inversion H; subst. exact Pb.
        * destruct n; discriminate.
    - intros L. split; [eexists; reflexivity|]. split.
      + split; [eexists; reflexivity|]. split; [reflexivity|]. cbn. rewrite app_length. lia.
      + intros i Li _. unfold scope_at. cbn. now rewrite app_nth1. }
  unfold bind. assert (A := assign_local_p f oo s1 (proj1 A1)).
  destruct (assign_local f oo s1) as [s2 []|s2| |]; auto; unfold K, ret.
  - split; [apply A|]. eapply Rp_trans; [apply A1|apply A].
  - split; [apply A|]. eapply Rp_trans; [apply A1|apply A].
Qed.

Lemma plain_pres : forall fuel n, ok_node other true false false true n -> pres Ip Rp' (interp fuel n).
Proof.
  apply interp_pres; auto using Rp_core, Rp_make, assign_local_p; try discriminate.
  - exact Rp_trans.
  - intros s s' o ps r body st I H E. eapply grows_func; [|exact E]. apply H, I.
  - intros. now apply func_p.
  - intros fuel IH _ o ps r body st vals s I Eo.
    assert (C := call_pure (fun b => interp fuel (NBlock b)) IH o ps r body st vals s I Eo).
    destruct (func_obj_call _ _ _ _ _ _ s); auto; (split; [apply C|apply Rp_pure, C]).
Qed.
End Plain.

(** ** Calls without assignments of the caller's own *)
Section Pure.
Variable other : bytes -> option builtin.
Variable method : obj -> bytes -> option builtin.
Hypothesis Hother : forall f b, other f = Some b -> tame b.
Hypothesis Hmethod : forall x m b, method x m = Some b -> tame b.
Notation interp := (interp other method).

Lemma pure_pres : forall fuel e, pure other e -> pres (Ip other) Rpure' (interp fuel (NExpr e)).
Proof.
  intros fuel e Q. apply (interp_pres other method Hother Hmethod false false false true (Ip other) Rpure');
    try (intros; discriminate); [| | | | |exact Q].
  - intros s s' I E _. split; [eapply core_ip; eassumption|]. intros L. inversion E as [[E1 E2 E3 E4]].
    split; [now apply grows_refl|]. split; [now apply frame_refl|]. intros i _. unfold scope_at. now rewrite E2.
  - exact Rpure_trans.
  - intros s l I N. split; [now apply make_ip|]. intros L. split; [now exists l|]. split; [now apply frame_refl|]. reflexivity.
  - intros s s' o ps r body st I H E. eapply grows_func; [|exact E]. apply H, I.
  - intros fuel0 _ _ o ps r body st vals s I Eo.
    apply (call_pure other (fun b => interp fuel0 (NBlock b))) with (o := o); auto.
    intros b Hb. now apply plain_pres.
Qed.
End Pure.

(** ** Any program *)
Section OkInd.
Variable other : bytes -> option builtin.
Notation okE := (okE other true true true).
Notation okS := (okS other true true true true).
Fixpoint all_okE (e : expr) : okE e.
Proof.
  refine (
  let go := fix go (es : list expr) : Forall okE es :=
    match es with [] => Forall_nil _ | e :: es => Forall_cons _ (all_okE e) (go es) end in
  let god := fix god (es : list (expr * expr)) : Forall (fun p => okE (fst p) /\ okE (snd p)) es :=
    match es with [] => Forall_nil _ | p :: es => Forall_cons _ (conj (all_okE (fst p)) (all_okE (snd p))) (god es) end in
  match e with
  | ENum n => okE_num _ _ _ _ n | EStr t => okE_str _ _ _ _ t | EBool b => okE_bool _ _ _ _ b
  | EVar x => okE_var _ _ _ _ x | EArr es => okE_arr _ _ _ _ es (go es)
  | EDict kvs => okE_dict _ _ _ _ kvs (god kvs)
  | ENot e => okE_not _ _ _ _ e (all_okE e)
  | EAnd a b => okE_and _ _ _ _ a b (all_okE a) (all_okE b)
  | EOr a b => okE_or _ _ _ _ a b (all_okE a) (all_okE b)
  | ECmp op a b => okE_cmp _ _ _ _ op a b (all_okE a) (all_okE b)
  | ETernary c a b => okE_tern _ _ _ _ c a b (all_okE c) (all_okE a) (all_okE b)
  | ENeg e => okE_neg _ _ _ _ e (all_okE e)
  | EArith op a b => okE_arith _ _ _ _ op a b (all_okE a) (all_okE b)
  | EIndex a i => okE_index _ _ _ _ a i (all_okE a) (all_okE i)
  | ECall f args => okE_call _ _ _ _ f args (fun _ => eq_refl) (fun _ => eq_refl) (fun _ => eq_refl) (go args)
  | EMethod e m args => okE_method _ _ _ _ e m args (all_okE e) (go args)
  end).
Defined.
Fixpoint all_okS (st : stmt) : okS st :=
  let go := fix go (b : list stmt) : Forall okS b :=
    match b with [] => Forall_nil _ | st :: b => Forall_cons _ (all_okS st) (go b) end in
  match st with
  | SExpr e => okS_expr _ _ _ _ _ e (all_okE e)
  | SAssign x e => okS_assign _ _ _ _ _ x e eq_refl (all_okE e)
  | SPlusAssign x e => okS_plus _ _ _ _ _ x e eq_refl (all_okE e)
  | SIf c t f => okS_if _ _ _ _ _ c t f (all_okE c) (go t) (go f)
  | SForeach x e body => okS_foreach _ _ _ _ _ x e body eq_refl (all_okE e) (go body)
  | SForeach2 k v e body => okS_foreach2 _ _ _ _ _ k v e body eq_refl (all_okE e) (go body)
  | SBreak => okS_break _ _ _ _ _
  | SContinue => okS_continue _ _ _ _ _
  | SReturn e => okS_return _ _ _ _ _ e (all_okE e)
  | SFunc f ps r body => okS_func _ _ _ _ _ f ps r body eq_refl (go body)
  end.
Lemma all_ok_node : forall n, ok_node other true true true true n.
Proof.
  intros [e|st|b]; cbn; [apply all_okE|apply all_okS|]. apply Forall_forall. intros; apply all_okS.
Qed.
End OkInd.

Section Top.
Variable other : bytes -> option builtin.
Variable method : obj -> bytes -> option builtin.
Hypothesis Hother : forall f b, other f = Some b -> tame b.
Hypothesis Hmethod : forall x m b, method x m = Some b -> tame b.
Notation interp := (interp other method).

Definition top (s : state) : list nat := nth 0 (stacks s) [].
Definition container (x : obj) : Prop := match x with OArr _ | ODict _ => True | _ => False end.
Definition keeps (s s' : state) : Prop :=
  forall o x, nth_error (heap s) o = Some x -> ~ container x -> nth_error (heap s') o = Some x.
Definition It (s : state) : Prop := well_formed s /\ own_scopes s.
Definition Rt (s s' : state) : Prop :=
  keeps s s' /\ frame s s' /\ (cur s <> 0 -> forall i, In i (top s) -> scope_at s' i = scope_at s i).
Definition Rtp (s s' : state) : Prop :=
  keeps s s' /\ frame s s' /\ (forall i, In i (top s) -> scope_at s' i = scope_at s i).
Definition Rt' s s' := It s -> Rt s s'.
Definition Rtp' s s' := It s -> Rtp s s'.

Lemma top_frame : forall s s', cur s < length (stacks s) -> frame s s' -> top s' = top s.
Proof. intros s s' L ((l & E) & _). unfold top. rewrite E. apply app_nth1. lia. Qed.
Lemma keeps_trans : forall s1 s2 s3, keeps s1 s2 -> keeps s2 s3 -> keeps s1 s3.
Proof. intros s1 s2 s3 H1 H2 o x E N. auto. Qed.

Definition postt := post It (fun s s' => Rt s s').
(* transitivity of Rt needs the invariant in the middle, which [post] provides *)
Lemma Rt_trans : forall s1 s2 s3, cur s1 < length (stacks s1) -> Rt s1 s2 -> Rt s2 s3 -> Rt s1 s3.
Proof.
  intros s1 s2 s3 L (K1 & F1 & U1) (K2 & F2 & U2). split; [eapply keeps_trans; eassumption|].
  split; [eapply frame_trans; eassumption|]. intros N i Ii. rewrite U2; [now apply U1| |].
  - destruct F1 as (_ & -> & _). exact N.
  - now rewrite (top_frame _ _ L F1).
Qed.
Lemma Rtp_trans : forall s1 s2 s3, cur s1 < length (stacks s1) -> Rtp s1 s2 -> Rtp s2 s3 -> Rtp s1 s3.
Proof.
  intros s1 s2 s3 L (K1 & F1 & U1) (K2 & F2 & U2). split; [eapply keeps_trans; eassumption|].
  split; [eapply frame_trans; eassumption|]. intros i Ii. rewrite U2; [now apply U1|].
  now rewrite (top_frame _ _ L F1).
Qed.
Definition Rt2 (s s' : state) := cur s < length (stacks s) -> Rt s s'.
Definition Rtp2 (s s' : state) := cur s < length (stacks s) -> Rtp s s'.
Lemma Rt2_trans : forall s1 s2 s3, Rt2 s1 s2 -> Rt2 s2 s3 -> Rt2 s1 s3.
Proof.
  intros s1 s2 s3 H1 H2 L. assert (R1 := H1 L). apply (Rt_trans s1 s2); auto. apply H2.
  eapply frame_cur; [exact L|apply R1].
Qed.
Lemma Rtp2_trans : forall s1 s2 s3, Rtp2 s1 s2 -> Rtp2 s2 s3 -> Rtp2 s1 s3.
Proof.
  intros s1 s2 s3 H1 H2 L. assert (R1 := H1 L). apply (Rtp_trans s1 s2); auto. apply H2.
  eapply frame_cur; [exact L|apply R1].
Qed.

Lemma core_it : forall s s', core s' = core s -> It s -> It s'.
Proof.
  intros s s' E I. inversion E as [[E1 E2 E3 E4]]. unfold It, well_formed, own_scopes in *.
  now rewrite E1, E2, E3, E4.
Qed.
Lemma rt_core : forall s s', core s' = core s -> Rtp s s'.
Proof.
  intros s s' E. inversion E as [[E1 E2 E3 E4]]. split; [intros o x; now rewrite E1|].
  split; [now apply frame_refl|]. intros i _. unfold scope_at. now rewrite E2.
Qed.
Lemma rtp_rt : forall s s', Rtp s s' -> Rt s s'.
Proof. intros s s' (K & F & U). split; [exact K|]. split; [exact F|]. auto. Qed.
(** objects change, but functions stay and no others appear *)
Lemma heap_it : forall s h, It s ->
  (forall o ps r body st, nth_error h o = Some (OFunc ps r body st) -> nth_error (heap s) o = Some (OFunc ps r body st)) ->
  It (with_heap h s).
Proof.
  intros s h ((W1 & W2 & W3) & O1 & O2) H. split; [split; [exact W1|split; [exact W2|]]|split; [|exact O2]].
  - intros o ps r body st E. apply H in E. eapply W3; exact E.
  - intros o ps r body st E. apply H in E. eapply O1; exact E.
Qed.
Lemma app_not_func : forall (h l : list obj) o ps r body st, Forall not_func l ->
  nth_error (h ++ l) o = Some (OFunc ps r body st) -> nth_error h o = Some (OFunc ps r body st).
Proof.
  intros h l o ps r body st N H. destruct (Nat.lt_ge_cases o (length h)) as [Lo|Lo].
  - now rewrite nth_error_app1 in H.
  - rewrite nth_error_app2 in H by exact Lo. apply nth_error_In in H. rewrite Forall_forall in N. apply N in H. destruct H.
Qed.
Lemma make_rt : forall s l, Rtp s (with_heap (heap s ++ l) s).
Proof.
  intros s l. split; [|split; [now apply frame_refl|reflexivity]].
  intros o x E _. cbn. rewrite nth_error_app1; [exact E|]. apply nth_error_Some. congruence.
Qed.
Lemma scope_it : forall s i e, It s -> It (with_scopes (upd i e (scopes s)) s).
Proof.
  intros s i e ((W1 & W2 & W3) & O). split; [split; [exact W1|split; [|exact W3]]|exact O].
  intros st j. cbn. rewrite upd_length. apply W2.
Qed.
(** a scope of the current stack changes *)
Lemma scope_rt : forall s i e, It s -> In i (nth (cur s) (stacks s) []) -> Rt s (with_scopes (upd i e (scopes s)) s).
Proof.
  intros s i e (_ & _ & O) Ii. split; [intros o x E _; exact E|]. split.
  - split; [exists []; now rewrite app_nil_r|]. split; [reflexivity|]. cbn. rewrite upd_length. lia.
  - intros N j Ij. unfold scope_at. cbn. apply nth_upd_other. intros ->. eapply O; eassumption.
Qed.
Lemma find_scope_in : forall s x st found i o, find_scope s x st found = Some (i, o) -> In i st \/ found = Some (i, o).
Proof.
  induction st as [|j st IH]; intros found i o H; cbn in H; [now right|].
  apply IH in H. destruct H as [H|H]; [left; now right|].
  destruct (dict_lookup (scope_at s j) x) as [o'|]; [|now right]. inversion H; subst. left. now left.
Qed.
Lemma container_upd : forall s o x y, obj_at s o = x -> container x -> It s -> container y ->
  It (with_heap (upd o y (heap s)) s) /\ Rtp s (with_heap (upd o y (heap s)) s).
Proof.
  intros s o x y E C I Cy. split.
  - apply heap_it; [exact I|]. intros o' ps r body st H. destruct (Nat.eq_dec o o') as [<-|N].
    + destruct (Nat.lt_ge_cases o (length (heap s))) as [L|L].
      * rewrite nth_error_upd_same in H by exact L. inversion H; subst y. destruct Cy.
      * assert (nth_error (upd o y (heap s)) o = None) by (apply nth_error_None; rewrite upd_length; lia). congruence.
    + now rewrite nth_error_upd_other in H.
  - split; [|split; [now apply frame_refl|reflexivity]].
    intros o' z H N. cbn. destruct (Nat.eq_dec o o') as [<-|N'].
    + apply obj_at_nth in H. subst. congruence.
    + now rewrite nth_error_upd_other.
Qed.

Lemma assign_local_t : forall x o, pres It Rt2 (assign_local x o).
Proof.
  intros x o s I. assert (A := assign_local_inv x o s). destruct (assign_local x o s) as [s' []|s'| |]; auto; [|contradiction].
  destruct A as (i & La & Ii & ->). split; [now apply scope_it|]. intros L. now apply scope_rt.
Qed.
Lemma reassign_t : forall x o, pres It Rt2 (reassign x o).
Proof.
  intros x o s I. unfold reassign, get_local_variable. destruct (find_scope s x _ None) as [[i o']|] eqn:F; [|exact Logic.I].
  apply find_scope_in in F. destruct F as [F|F]; [|discriminate]. split; [now apply scope_it|]. intros L. now apply scope_rt.
Qed.
Lemma unassign_t : forall x, pres It Rt2 (unassign x).
Proof.
  intros x s I. unfold unassign, get_local_variable. destruct (find_scope s x _ None) as [[i o']|] eqn:F.
  - apply find_scope_in in F. destruct F as [F|F]; [|discriminate]. split; [now apply scope_it|]. intros L. now apply scope_rt.
  - split; [exact I|]. intros L. apply rtp_rt, rt_core. reflexivity.
Qed.
Lemma assign_params_t : forall ps vs, pres It Rt2 (assign_params ps vs).
Proof.
  assert (C : forall s, It s -> post It Rt2 s s).
  { intros s I. split; [exact I|]. intros _. apply rtp_rt, rt_core. reflexivity. }
  induction ps as [|p ps IH]; intros vs; cbn [assign_params]; [intros s I; now apply C|].
  destruct vs as [|v vs]; [intros s I; now apply C|].
  apply pres_bind; [exact Rt2_trans|apply assign_local_t|intros _; apply IH].
Qed.
Lemma obj_at_func : forall s o ps r body st, obj_at s o = OFunc ps r body st -> nth_error (heap s) o = Some (OFunc ps r body st).
Proof.
  intros s o ps r body st Eo. unfold obj_at in Eo. destruct (nth_error (heap s) o) as [x|] eqn:N.
  - rewrite (nth_error_nth _ _ _ N) in Eo. congruence.
  - rewrite nth_overflow in Eo by (now apply nth_error_None). discriminate.
Qed.
Lemma nth_upd_same : forall {A} (l : list A) i x d, i < length l -> nth i (upd i x l) d = x.
Proof. intros A l i x d L. apply nth_error_nth. now apply nth_error_upd_same. Qed.

Lemma call_top_frame : forall s0 o ps r body st s1 s2,
  It s0 -> obj_at s0 o = OFunc ps r body st ->
  s1 = with_stacks (upd st (nth st (stacks s0) [] ++ [length (scopes s0)]) (stacks s0))
         (with_scopes (scopes s0 ++ [[]]) (with_cur st s0)) ->
  It s1 /\
  (It s2 -> Rt2 s1 s2 -> forall s3,
   core s3 = core (with_cur (cur s0) (with_stacks (upd (cur s2) (removelast (nth (cur s2) (stacks s2) [])) (stacks s2)) s2)) ->
   It s3 /\ Rtp2 s0 s3).
Proof.
  intros s0 o ps r body st s1 s2 ((W1 & W2 & W3) & O1 & O2) Eo E1.
  apply obj_at_func in Eo. assert (Lst := W3 _ _ _ _ _ Eo). assert (Nst := O1 _ _ _ _ _ Eo).
  set (k := length (scopes s0)) in *. set (l := nth st (stacks s0) []) in *.
  assert (Hl : forall i, In i l -> i < k) by (intros i J; eapply W2; [apply nth_In; exact Lst|exact J]).
  assert (T1 : top s1 = top s0) by (subst s1; unfold top; cbn; now rewrite nth_upd_other).
  assert (Ht : forall i, In i (top s0) -> i < k).
  { intros i J. eapply W2; [|exact J]. apply nth_In. lia. }
  assert (I1 : It s1).
  { split; [split; [|split]|split].
    - subst s1. cbn. now rewrite upd_length.
    - subst s1. cbn. intros st' i J K. rewrite app_length. cbn. apply in_upd in J. destruct J as [->|J].
      + apply in_app_iff in K. destruct K as [K|[<-|[]]]; [apply Hl in K; lia|lia].
      + specialize (W2 st' i J K). lia.
    - subst s1. cbn. intros. rewrite upd_length. eapply W3; eassumption.
    - subst s1. exact O1.
    - intros j i Nj Ij It0. fold (top s1) in It0. rewrite T1 in It0. subst s1. cbn in Ij.
      destruct (Nat.eq_dec st j) as [<-|Nsj].
      + rewrite nth_upd_same in Ij by exact Lst. apply in_app_iff in Ij.
        destruct Ij as [Ij|[<-|[]]]; [eapply O2; eassumption|]. apply Ht in It0. lia.
      + rewrite nth_upd_other in Ij by exact Nsj. eapply O2; eassumption. }
  split; [exact I1|]. intros I2 R12 s3 C.
  assert (L1 : cur s1 < length (stacks s1)) by (apply I1).
  destruct (R12 L1) as (G & F & U). assert (F' := F). destruct F as ((m & Es) & Ec & Ls).
  assert (Ec' : cur s2 = st) by (rewrite Ec; subst s1; reflexivity).
  assert (Est : nth (cur s2) (stacks s2) [] = l ++ [k]).
  { rewrite (frame_stack s1 s2 L1 F'). subst s1. cbn. now apply nth_upd_same. }
  assert (Estacks : upd (cur s2) (removelast (nth (cur s2) (stacks s2) [])) (stacks s2) = stacks s0 ++ m).
  { rewrite Est, removelast_last, Es, Ec'. subst s1. cbn.
    rewrite upd_app_l by now rewrite upd_length. rewrite upd_upd. f_equal. now apply upd_nth. }
  rewrite Estacks in C. inversion C as [[C1 C2 C3 C4]]. cbn in C1, C2, C3, C4.
  assert (T2 : top s2 = top s0) by (rewrite (top_frame _ _ L1 F'); exact T1).
  assert (T3 : top s3 = top s0) by (unfold top; rewrite C3; apply app_nth1; lia).
  split.
  - destruct I2 as ((V1 & V2 & V3) & Q1 & Q2). split; [split; [|split]|split].
    + rewrite C3, C4, app_length. lia.
    + rewrite C2, C3. intros st' i J K. apply in_app_iff in J. destruct J as [J|J].
      * specialize (W2 st' i J K). subst s1. cbn in Ls. rewrite app_length in Ls. cbn in Ls. lia.
      * apply (V2 st' i); [|exact K]. rewrite Es. apply in_or_app. now right.
    + rewrite C1, C3. intros. apply V3 in H. rewrite Es, app_length in H. rewrite app_length.
      subst s1. cbn in H. rewrite upd_length in H. lia.
    + intros o' ps' r' body' st'. rewrite C1. apply Q1.
    + intros j i Nj Ij It0. fold (top s3) in It0. rewrite T3 in It0. rewrite C3 in Ij.
      destruct (Nat.lt_ge_cases j (length (stacks s0))) as [Lj|Lj].
      * rewrite app_nth1 in Ij by exact Lj. eapply O2; eassumption.
      * apply (Q2 j i Nj); [|fold (top s2); now rewrite T2]. rewrite Es. rewrite app_nth2 in Ij by exact Lj.
        assert (El : length (stacks s1) = length (stacks s0)) by (subst s1; cbn; now rewrite upd_length).
        rewrite app_nth2 by lia. now rewrite El.
  - intros L0. split; [|split].
    + intros o' x E N. rewrite C1. apply G; [|exact N]. subst s1. exact E.
    + split; [exists m; exact C3|]. split; [exact C4|]. rewrite C2.
      subst s1. cbn in Ls. rewrite app_length in Ls. fold k in Ls |- *. lia.
    + intros i Ii. unfold scope_at. rewrite C2. change (scope_at s2 i = scope_at s0 i).
      rewrite U.
      * subst s1. unfold scope_at. cbn. rewrite app_nth1; [reflexivity|now apply Ht].
      * subst s1. exact Nst.
      * now rewrite T1.
Qed.

Lemma call_top : forall (Bk : list stmt -> M nat), (forall b, pres It Rt2 (Bk b)) ->
  forall o ps r body st vals s, It s -> obj_at s o = OFunc ps r body st ->
  match func_obj_call Bk ps r body st vals s with
  | Ok s' _ => post It Rtp2 s s' | Err s' => post It Rtp2 s s' | _ => True end.
Proof.
  intros Bk HB o ps r body st vals s I Eo. unfold func_obj_call.
  unfold bind at 1, get. unfold bind at 1, put. unfold bind at 1, push_local_scope, put.
  match goal with |- context [bind (assign_params ps vals) ?k ?x] => set (s1 := x); set (K := k) end.
  assert (CF := fun s2 => call_top_frame s o ps r body st s1 s2 I Eo eq_refl).
  assert (I1 : It s1) by (exact (proj1 (CF s1))).
  unfold bind. assert (A := assign_params_t ps vals s1 I1).
  destruct (assign_params ps vals s1) as [s2 []|s2| |] eqn:EA; auto.
  2:{ exfalso. now apply assign_params_no_err in EA. }
  unfold K. clear K. unfold bind, put. cbv beta iota zeta.
  set (s2' := with_return false 0 s2).
  assert (A' : post It Rt2 s1 s2').
  { destruct A as [I2 R2]. split; [eapply core_it; [|exact I2]; reflexivity|].
    eapply Rt2_trans; [exact R2|]. intros _. apply rtp_rt, rt_core. reflexivity. }
  assert (HB' := HB body s2' (proj1 A')).
  destruct (Bk body s2') as [s3 a|s3| |]; auto.
  - assert (A3 : post It Rt2 s1 s3).
    { split; [apply HB'|]. eapply Rt2_trans; [apply A'|apply HB']. }
    match goal with |- context [if ?c then Ok _ _ else _] => destruct c end;
      (apply (proj2 (CF s3) (proj1 A3) (proj2 A3)); reflexivity).
  - assert (A3 : post It Rt2 s1 s3).
    { split; [apply HB'|]. eapply Rt2_trans; [apply A'|apply HB']. }
    apply (proj2 (CF s3) (proj1 A3) (proj2 A3)); reflexivity.
Qed.

Lemma func_t : forall f ps r body,
  pres It Rt2 (bind scope_stack_dup (fun st => bind (make (OFunc ps r body st)) (fun o => bind (assign_local f o) (fun _ => ret o)))).
Proof.
  intros f ps r body s I. unfold bind at 1, scope_stack_dup. cbv beta iota zeta.
  set (l := nth (cur s) (stacks s) []). unfold bind at 1, make.
  match goal with |- context [bind (assign_local f ?o) ?k ?x] => set (s1 := x); set (K := k); set (oo := o) end.
  assert (A1 : post It Rt2 s s1).
  { destruct I as ((W1 & W2 & W3) & O1 & O2).
    assert (T1 : top s1 = top s) by (unfold top; cbn; apply app_nth1; lia).
    assert (Q : forall o ps' r' body' st, nth_error (heap s1) o = Some (OFunc ps' r' body' st) ->
      nth_error (heap s) o = Some (OFunc ps' r' body' st) \/ st = length (stacks s)).
    { intros o ps' r' body' st H. cbn in H. destruct (Nat.lt_ge_cases o (length (heap s))) as [Lo|Lo].
      - rewrite nth_error_app1 in H by exact Lo. now left.
      - rewrite nth_error_app2 in H by exact Lo. destruct (o - length (heap s)) as [|n]; cbn in H.
        + inversion H; subst. now right.
        + destruct n; discriminate. }
    split; [split; [split; [|split]|split]|].
    - cbn. rewrite app_length. cbn. lia.
    - cbn. intros st i J K'. rewrite app_length, map_length. apply in_app_iff in J. destruct J as [J|[<-|[]]].
      + specialize (W2 st i J K'). lia.
      + apply in_seq in K'. lia.
    - intros o ps' r' body' st H. cbn. rewrite app_length. cbn. apply Q in H. destruct H as [H|H]; [apply W3 in H|]; lia.
    - intros o ps' r' body' st H. apply Q in H. destruct H as [H|H]; [eapply O1; exact H|lia].
    - intros j i Nj Ij It0. fold (top s1) in It0. rewrite T1 in It0. cbn in Ij.
      destruct (Nat.lt_ge_cases j (length (stacks s))) as [Lj|Lj].
      + rewrite app_nth1 in Ij by exact Lj. eapply O2; eassumption.
      + rewrite app_nth2 in Ij by exact Lj. destruct (j - length (stacks s)) as [|n]; cbn in Ij.
        * apply in_seq in Ij. assert (i < length (scopes s)); [|lia]. eapply W2; [|exact It0]. apply nth_In. lia.
        * destruct n; destruct Ij.
    - intros L. apply rtp_rt. split.
      + intros o x H _. cbn. rewrite nth_error_app1; [exact H|]. apply nth_error_Some. congruence.
      + split; [split; [eexists; reflexivity|split; [reflexivity|cbn; rewrite app_length; lia]]|].
        intros i Ii. unfold scope_at. cbn. rewrite app_nth1; [reflexivity|]. eapply W2; [|exact Ii]. apply nth_In. lia. }
  unfold bind. assert (A := assign_local_t f oo s1 (proj1 A1)).
  destruct (assign_local f oo s1) as [s2 []|s2| |]; auto; unfold K, ret.
  - split; [apply A|]. eapply Rt2_trans; [apply A1|apply A].
  - split; [apply A|]. eapply Rt2_trans; [apply A1|apply A].
Qed.

Lemma keeps_func : forall s s' o ps r body st, keeps s s' -> obj_at s o = OFunc ps r body st -> obj_at s' o = OFunc ps r body st.
Proof.
  intros s s' o ps r body st K E. apply obj_at_func in E. apply obj_at_nth. apply K; [exact E|]. intros [].
Qed.
Lemma top_pres : forall fuel n, pres It Rt2 (interp fuel n).
Proof.
  intros fuel n. apply (interp_pres other method Hother Hmethod true true true true It Rt2); try (now apply all_ok_node).
  - intros s s' I E _. split; [eapply core_it; eassumption|]. intros _. now apply rtp_rt, rt_core.
  - exact Rt2_trans.
  - intros s l I N. split.
    + apply heap_it; [exact I|]. intros. eapply app_not_func; eassumption.
    + intros _. apply rtp_rt, make_rt.
  - intros s s' o ps r body st I H E. eapply keeps_func; [|exact E]. apply H, I.
  - intros. apply assign_local_t.
  - intros. apply reassign_t.
  - intros o l l' _ s I E. destruct (container_upd s o _ (OArr l') E Logic.I I Logic.I) as [I' R']. split; [exact I'|]. intros _. now apply rtp_rt.
  - intros o l l' _ s I E. destruct (container_upd s o _ (ODict l') E Logic.I I Logic.I) as [I' R']. split; [exact I'|]. intros _. now apply rtp_rt.
  - intros. apply unassign_t.
  - intros. apply func_t.
  - intros fuel0 IH _ o ps r body st vals s I Eo.
    assert (C := call_top (fun b => interp fuel0 (NBlock b)) (fun b => IH b (proj2 (Forall_forall _ _) (fun st _ => all_okS other st))) o ps r body st vals s I Eo).
    destruct (func_obj_call _ _ _ _ _ _ s); auto; (split; [apply C|intros L; apply rtp_rt, C, L]).
Qed.
Lemma pure_top_pres : forall fuel e, pure other e -> pres It Rtp2 (interp fuel (NExpr e)).
Proof.
  intros fuel e Q. apply (interp_pres other method Hother Hmethod false false false true It Rtp2);
    try (intros; discriminate); [| | | | |exact Q].
  - intros s s' I E _. split; [eapply core_it; eassumption|]. intros _. now apply rt_core.
  - exact Rtp2_trans.
  - intros s l I N. split.
    + apply heap_it; [exact I|]. intros. eapply app_not_func; eassumption.
    + intros _. apply make_rt.
  - intros s s' o ps r body st I H E. eapply keeps_func; [|exact E]. apply H, I.
  - intros fuel0 _ _ o ps r body st vals s I Eo.
    apply call_top with (o := o); auto. intros b. apply top_pres.
Qed.
End Top.
