(** C126, C127: the names of shared libraries and the links to them (src/functions/kernel/build_target.c, src/install.c).
    Spec: S_Names.v *)
From Coq Require Import Lia NArith.
From Verif Require Import Base M_Path S_Path M_Compile S_Compile M_Names S_Names L_Names.
Local Arguments B _ : simpl never.

(** ** C126: names *)
(** A shared library is named after its target and its version, and its soname after the soversion or the first part
    of the version; with the same soname go all versions that begin alike. *)
Theorem C126_the_names_of_shared_libraries_partial dir a :
  fits_buffers a -> ordinary a -> is_abs dir = true -> clean dir ->
  exists build so links, target_names OtherSystem SharedLib dir a = Some (library_name a, build, Some so, links) /\
    file_name a build /\ soname_of a so.
Proof.
  intros Fi O Hd Cd. destruct (own_links dir a Fi O Hd Cd) as (build & so & l & F & So & E & _). eauto 8.
Qed.
Print Assumptions C126_the_names_of_shared_libraries_partial.

(** A library of Windows has the soname that it is built as, unless it has a suffix of its own. *)
Theorem C126_dlls_are_built_as_they_are_named_partial sys t dir a plain build so links :
  sys = Windows \/ sys = Cygwin -> t = SharedLib \/ t = SharedModule -> n_suff a = None -> n_sover a <> Some [] -> (forall r, n_ver a <> Some ("."%char :: r)) ->
  target_names sys t dir a = Some (plain, build, Some so, links) -> so = build /\ links = [].
Proof.
  intros Hs Ht Ns N1 N2. unfold target_names, build_names, name_parts, dll_name. destruct Hs as [->| ->]; destruct Ht as [->| ->]; cbn [windows_like]; rewrite Ns;
    destruct (n_sover a) as [s|] eqn:Es.
  1, 3, 5, 7: unfold copy_1k; destruct (_ <? _)%N; [|discriminate]; intros E; injection E as <- <- <- <-; split; [|reflexivity]; destruct s; [congruence|]; reflexivity.
  all: destruct (n_ver a) as [v|] eqn:Ev; [|intros E; injection E as <- <- <- <-; split; reflexivity].
  all: unfold copy_1k; destruct (_ <? _)%N; [|discriminate]; destruct (has_dot v) eqn:Hd; intros E; injection E as <- <- <- <-; split; try reflexivity.
  all: destruct v as [|c v]; [discriminate|]; unfold before_dot; cbn [span]; destruct (ceqb_spec c "."%char) as [->|N]; [now elim (N2 v)|]; cbn [negb];
    destruct (span _ v); reflexivity.
Qed.
Print Assumptions C126_dlls_are_built_as_they_are_named_partial.

(** With a suffix the linker is told to make another file than the one that is expected; a version without a name
    before its first dot and an empty soversion do the same. *)
Theorem C126_dlls_with_a_suffix_refuted :
  target_names Windows SharedLib (B "/b") (NamingArgs (B "x") None None None (Some (B "pyd"))) = Some (B "libx", B "libx.pyd", Some (B "libx.dll"), []) /\
  target_names Windows SharedLib (B "/b") (NamingArgs (B "x") (Some []) None None None) = Some (B "libx", B "libx.dll", Some (B "libx-.dll"), []).
Proof. split; vm_compute; reflexivity. Qed.
Print Assumptions C126_dlls_with_a_suffix_refuted.

(** A long name is cut, so that different libraries have the same name. *)
Theorem C126_long_names_are_cut_refuted p x y :
  length p = N.to_nat 2044 -> build_names OtherSystem SharedLib (NamingArgs (p ++ x) None None None None) = build_names OtherSystem SharedLib (NamingArgs (p ++ y) None None None None).
Proof.
  intros L. unfold build_names, name_parts. cbn [windows_like n_pre n_suff n_name n_ver n_sover].
  assert (X : forall z, cut 2047 (B "lib" ++ (p ++ z) ++ dotted (Some (B "so"))) = B "lib" ++ p).
  { intros z. unfold cut. rewrite <- app_assoc, app_assoc. rewrite firstn_app. assert (E : length (B "lib" ++ p) = N.to_nat 2047) by (rewrite app_length, L; change (length (B "lib")) with 3; lia).
    rewrite E, Nat.sub_diag, firstn_O, app_nil_r. rewrite <- E. apply firstn_all. }
  now rewrite !X.
Qed.
Print Assumptions C126_long_names_are_cut_refuted.

Definition a_library : naming_args := NamingArgs (B "x") None (Some (B "1.2.3")) None None.
Definition b_library : naming_args := NamingArgs (B "y") (Some (B "4")) (Some (B "1.2.3")) None None.
Definition c_library : naming_args := NamingArgs (B "z") None None None None.
Lemma proper_examples a : In a [a_library; b_library; c_library] -> fits_buffers a /\ ordinary a /\ usual a.
Proof.
  intros H. assert (X : forall s, In s [B "1.2.3"; B "4"] -> (N.of_nat (length s) <= 1022)%N) by (intros s [<-|[<-|[]]]; vm_compute; discriminate).
  repeat destruct H as [<-|H]; try contradiction; (split; [|split]).
  all: try (split; [vm_compute; discriminate|]; cbn [n_sover n_ver a_library b_library c_library]; split; intros s E; try discriminate E; injection E as <-; apply X; cbn; tauto).
  all: try (split; [intros H; vm_compute in H; intuition discriminate|eexists _, _; split; [reflexivity|discriminate]]).
  all: repeat split; intros H; vm_compute in H; intuition discriminate.
Qed.
Example C126_hypotheses_can_hold :
  (forall a, In a [a_library; b_library; c_library] -> fits_buffers a /\ ordinary a) /\ is_abs (B "/b") = true /\
  target_names OtherSystem SharedLib (B "/b") a_library =
    Some (B "libx.so", B "libx.so.1.2.3", Some (B "libx.so.1"), [(B "/b/libx.so.1", B "libx.so.1.2.3"); (B "/b/libx.so", B "libx.so.1")]) /\
  target_names OtherSystem SharedLib (B "/b") b_library =
    Some (B "liby.so", B "liby.so.1.2.3", Some (B "liby.so.4"), [(B "/b/liby.so.4", B "liby.so.1.2.3"); (B "/b/liby.so", B "liby.so.4")]) /\
  target_names Windows SharedLib (B "/b") a_library = Some (B "libx", B "libx-1.dll", Some (B "libx-1.dll"), []).
Proof.
  split; [intros a H; destruct (proper_examples a H) as (H1 & H2 & _); auto|]. repeat split; vm_compute; reflexivity.
Qed.

(** ** C127: links *)
(** Whatever was in the build directories before: when any number of shared libraries have been declared, the name that
    one links with and the soname of each lead to its file, and no file has become a link. *)
Theorem C127_links_lead_to_the_libraries_partial libs f :
  Forall (fun x => fits_buffers (snd x) /\ ordinary (snd x) /\ usual (snd x) /\ is_abs (fst x) = true /\ clean (fst x)) libs ->
  ForallOrdPairs apart libs ->
  exists f', declare_all OtherSystem location libs f = Some f' /\
    forall dir a build so, In (dir, a) libs -> file_name a build -> soname_of a so ->
      leads f' (comps dir ++ [so]) (comps dir ++ [build]) /\
      leads f' (comps dir ++ [library_name a]) (comps dir ++ [build]) /\
      f' (comps dir ++ [build]) = f (comps dir ++ [build]).
Proof.
  intros P A. destruct (declare_ok libs f P A) as (f' & E & En & Bu & _). exists f'. split; [exact E|].
  intros dir a build so H F So. rewrite Forall_forall in P, En. destruct (P _ H) as (_ & O & _ & _ & C). destruct (En _ H build so F So) as [E1 E2]. cbn [fst snd] in *.
  destruct (own_leads f' (comps dir) a build so O F So C E1 E2) as [L1 L2]. split; [exact L1|]. split; [exact L2|]. exact (Bu (dir, a) build H F).
Qed.
Print Assumptions C127_links_lead_to_the_libraries_partial.

(** When the library is built and installed, its names in the directory where it is installed lead to it as well. *)
Theorem C127_installed_links_lead_to_the_library_partial dir inst a f id build so :
  fits_buffers a -> ordinary a -> is_abs dir = true -> clean dir -> is_abs inst = true -> clean inst -> comps inst <> comps dir ->
  file_name a build -> soname_of a so ->
  f (comps dir ++ [build]) = Some (File id) -> ~ is_link f (comps inst ++ [build]) ->
  exists links todo f', target_names OtherSystem SharedLib dir a = Some (library_name a, build, Some so, links) /\
    to_install dir inst build links = Some todo /\ install_all location todo (make_links location links f) = Some f' /\
    f' (comps inst ++ [build]) = Some (File id) /\
    leads f' (comps inst ++ [so]) (comps inst ++ [build]) /\ leads f' (comps inst ++ [library_name a]) (comps inst ++ [build]).
Proof.
  intros Fi O Hd Cd Hi Ci N F So Ef Nl. destruct (install_ok dir inst a f id Fi O Hd Cd Hi Ci N build so F So Ef Nl) as (l & t & f' & E1 & E2 & E3 & E4 & E5 & E6).
  exists l, t, f'. repeat (split; [assumption|]). exact (own_leads f' (comps inst) a build so O F So Ci E5 E6).
Qed.
Print Assumptions C127_installed_links_lead_to_the_library_partial.

(** On darwin the file of a library with a version is replaced by a link that leads to itself. *)
Theorem C127_versions_on_darwin_refuted f : exists f',
  declare_all Darwin location [(B "/b", a_library)] f = Some f' /\ build_names Darwin SharedLib a_library = Some (B "libx.dylib", B "libx.dylib") /\
  f' [B "b"; B "libx.dylib"] = Some (Link (B "libx.dylib.1")) /\ f' [B "b"; B "libx.dylib.1"] = Some (Link (B "libx.dylib")).
Proof. eexists. repeat split; vm_compute; reflexivity. Qed.
Print Assumptions C127_versions_on_darwin_refuted.

(** Elsewhere links that are left from an earlier configuration can make such a loop: here the version and the
    soversion of a library have been exchanged. *)
Definition exchanged : naming_args := NamingArgs (B "x") (Some (B "1.2.3")) (Some (B "1")) None None.
Theorem C127_links_of_earlier_configurations_refuted : exists f',
  declare_all OtherSystem location [(B "/b", a_library); (B "/b", exchanged)] (fun _ => None) = Some f' /\
  build_names OtherSystem SharedLib exchanged = Some (B "libx.so", B "libx.so.1") /\
  f' [B "b"; B "libx.so.1"] = Some (Link (B "libx.so.1.2.3")) /\ f' [B "b"; B "libx.so.1.2.3"] = Some (Link (B "libx.so.1")).
Proof. eexists. repeat split; vm_compute; reflexivity. Qed.
Print Assumptions C127_links_of_earlier_configurations_refuted.

Example C127_hypotheses_can_hold :
  let libs := [(B "/b", a_library); (B "/b", b_library); (B "/b/sub", a_library); (B "/b", c_library)] in
  Forall (fun x => fits_buffers (snd x) /\ ordinary (snd x) /\ usual (snd x) /\ is_abs (fst x) = true /\ clean (fst x)) libs /\
  ForallOrdPairs apart libs /\ file_name a_library (B "libx.so.1.2.3") /\ soname_of a_library (B "libx.so.1").
Proof.
  split; [|split; [|split]].
  - assert (C : clean (B "/b") /\ clean (B "/b/sub")) by (split; intros H; vm_compute in H; intuition discriminate).
    repeat constructor; cbn [fst snd]; try apply proper_examples; try (cbn; tauto); try reflexivity; apply C.
  - repeat first [apply FOP_nil|apply FOP_cons|apply Forall_nil|apply Forall_cons]; unfold apart; cbn [fst snd]; first [right; discriminate|left; vm_compute; discriminate].
  - reflexivity.
  - exists (B "1"). split; [|reflexivity]. split; [intros H; vm_compute in H; intuition discriminate|]. right. exists (B "2.3"). reflexivity.
Qed.
