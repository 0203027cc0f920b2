(** Lemmas about wrap files. *)
From Verif Require Import Base M_Path M_Sha S_Sha L_Sha P_Sha M_Wrap S_Wrap.
Local Arguments B _ : simpl never.

Lemma has_given : forall k l, has k l = true <-> In k (map fst l).
Proof.
  unfold has. induction l as [|[a v] l IH]; cbn [get map In fst]; [split; [discriminate|tauto]|].
  destruct (beqb_spec a k) as [->|Ne]; [split; [left; reflexivity|reflexivity]|].
  rewrite IH. split; [right; assumption|intros [E|I]; [contradiction|exact I]].
Qed.

Lemma has_not : forall k l, has k l = false <-> ~ In k (map fst l).
Proof. intros k l. rewrite <- has_given. destruct (has k l); split; congruence. Qed.

Lemma known_field : forall k, existsb (beqb k) field_names = true <-> In k documented.
Proof.
  intros k. rewrite existsb_exists. change documented with field_names. split.
  - intros (x & I & E). apply beqb_eq in E. subst x. exact I.
  - intros I. exists k. split; [exact I|apply beqb_refl].
Qed.

Definition type_of (s : bytes) : wtype := if beqb s (B "wrap-git") then TGit else TFile.

Lemma section_known : forall s, In s [B "wrap-file"; B "wrap-git"; B "provide"] <-> section_of s <> None.
Proof.
  intros s. unfold section_of. cbn [In].
  destruct (beqb_spec s (B "wrap-file")) as [->|N1]; [split; [discriminate|tauto]|].
  destruct (beqb_spec s (B "wrap-git")) as [->|N2]; [split; [discriminate|tauto]|].
  destruct (beqb_spec s (B "provide")) as [->|N3]; [split; [discriminate|tauto]|].
  split; [|congruence]. intros [E|[E|[E|[]]]]; congruence.
Qed.

Lemma section_cases : forall s t, section_of s = Some t ->
  (t = TProvide /\ s = B "provide") \/ (t <> TProvide /\ beqb s (B "provide") = false /\ t = type_of s).
Proof.
  intros s t. unfold section_of, type_of.
  destruct (beqb_spec s (B "wrap-file")) as [->|N1]; [intros [= <-]; right; repeat split; discriminate|].
  destruct (beqb_spec s (B "wrap-git")) as [->|N2]; [intros [= <-]; right; repeat split; discriminate|].
  destruct (beqb_spec s (B "provide")) as [->|N3]; [intros [= <-]; left; split; reflexivity|discriminate].
Qed.

Definition one (b : bool) : nat := if b then 1 else 0.

Lemma parse_ok : forall ls cur c, in_order cur ls ->
  (forall s, cur = Some s -> section_of s = Some (in_section c)) -> NoDup (map fst (fields c)) ->
  ((exists c', parse_lines c ls = Some c')
   <-> Forall (fun l : item => fst l <> None) ls
       /\ Forall (fun s => In s [B "wrap-file"; B "wrap-git"; B "provide"]) (headers ls)
       /\ one (have_type c) + length (kinds ls) <= 1
       /\ NoDup (map fst (fields c ++ given_fields ls))
       /\ Forall (fun kv => In (fst kv) documented) (given_fields ls))
  /\ (forall c', parse_lines c ls = Some c' -> fields c' = fields c ++ given_fields ls
        /\ wtyp c' = match kinds ls with [] => wtyp c | s :: _ => type_of s end).
Proof.
  induction ls as [|[so [[k v]|]] ls IH]; intros cur c O Sc Nd.
  - cbn. rewrite app_nil_r. split; [|intros c' [= <-]; split; reflexivity].
    split; [|intros _; exists c; reflexivity]. intros _. split; [constructor|]. split; [constructor|].
    split; [destruct (have_type c); cbn; lia|]. split; [exact Nd|constructor].
  - (* a key *)
    cbn [in_order] in O. destruct O as (<- & O). destruct so as [s|].
    2:{ split; [|intros c' [=]]. split; [intros (c' & [=])|]. intros (F & _). inversion F as [|? ? H]. exfalso. apply H. reflexivity. }
    specialize (Sc s eq_refl) as Ss. cbn [parse_lines parse_cb].
    assert (Hh : headers (@cons item (Some s, Some (k, v)) ls) = headers ls) by reflexivity.
    unfold kinds. rewrite Hh. fold (kinds ls).
    assert (Fn : forall P : Prop, (Forall (fun l : item => fst l <> None) (@cons item (Some s, Some (k, v)) ls) /\ P)
        <-> (Forall (fun l : item => fst l <> None) ls /\ P)).
    { intros P. split; intros (F & H); (split; [|exact H]); [inversion F; assumption|constructor; [discriminate|exact F]]. }
    destruct (section_cases s _ Ss) as [(E1 & E2) | (E1 & E2 & E3)].
    + rewrite E1. assert (Hg : given_fields (@cons item (Some s, Some (k, v)) ls) = given_fields ls).
      { cbn [given_fields flat_map]. rewrite E2, beqb_refl. reflexivity. }
      rewrite Hg, Fn. exact (IH (Some s) c O ltac:(intros s' [= <-]; exact Ss) Nd).
    + assert (Hg : given_fields (@cons item (Some s, Some (k, v)) ls) = (k, v) :: given_fields ls).
      { cbn [given_fields flat_map]. rewrite E2. reflexivity. }
      rewrite Hg, Fn.
      assert (D : forall A (x y : A), match in_section c with TProvide => x | _ => y end = y)
        by (intros; destruct (in_section c); congruence).
      replace (match in_section c with TProvide => Some c | _ =>
          if negb (existsb (beqb k) field_names) then None
          else if has k (fields c) then None
          else Some (mkCtx (wtyp c) (fields c ++ [(k, v)]) (in_section c) (have_type c) (has_provides c)) end)
        with (if negb (existsb (beqb k) field_names) then None
          else if has k (fields c) then None
          else Some (mkCtx (wtyp c) (fields c ++ [(k, v)]) (in_section c) (have_type c) (has_provides c)))
        by (destruct (in_section c); congruence).
      destruct (existsb (beqb k) field_names) eqn:Ek; cbn [negb].
      2:{ split; [|intros c' [=]]. split; [intros (c' & [=])|]. intros (_ & _ & _ & _ & F). exfalso.
          inversion F as [|? ? I]. apply known_field in I. cbn [fst] in I. congruence. }
      apply known_field in Ek. destruct (has k (fields c)) eqn:Eh.
      * apply has_given in Eh. split; [|intros c' [=]]. split; [intros (c' & [=])|]. intros (_ & _ & _ & N & _). exfalso.
        rewrite map_app in N. cbn [map fst] in N. apply NoDup_remove_2 in N. apply N. apply in_or_app. left. exact Eh.
      * apply has_not in Eh.
        assert (N1 : NoDup (map fst (fields c ++ [(k, v)]))).
        { rewrite map_app. cbn [map fst]. apply NoDup_rev in Nd. rewrite <- (rev_involutive (map fst (fields c) ++ [k])).
          apply NoDup_rev. rewrite rev_app_distr. cbn [rev app]. constructor; [|exact Nd]. rewrite <- in_rev. exact Eh. }
        destruct (IH (Some s) (mkCtx (wtyp c) (fields c ++ [(k, v)]) (in_section c) (have_type c) (has_provides c)) O
                    ltac:(intros s' [= <-]; exact Ss) N1) as (A & Bc).
        cbn [fields have_type wtyp] in A, Bc. rewrite <- app_assoc in A. cbn [app] in A.
        split.
        -- rewrite A. split; intros (H1 & H2 & H3 & H4 & H5); repeat split; try assumption;
             [constructor; [exact Ek|exact H5]|inversion H5; assumption].
        -- intros c' H. destruct (Bc c' H) as (B1 & B2). rewrite <- app_assoc in B1. split; assumption.
  - (* a header *)
    cbn [in_order] in O. destruct O as (Os & O). destruct so as [s|]; [|contradiction]. cbn [parse_lines parse_cb].
    assert (Hh : headers (@cons item (Some s, None) ls) = s :: headers ls) by reflexivity.
    assert (Hg : given_fields (@cons item (Some s, None) ls) = given_fields ls) by reflexivity.
    unfold kinds. rewrite Hh, Hg. cbn [filter].
    assert (Fn : forall P : Prop, (Forall (fun l : item => fst l <> None) (@cons item (Some s, None) ls) /\ P)
        <-> (Forall (fun l : item => fst l <> None) ls /\ P)).
    { intros P. split; intros (F & H); (split; [|exact H]); [inversion F; assumption|constructor; [discriminate|exact F]]. }
    rewrite Fn. destruct (section_of s) as [t|] eqn:Es.
    2:{ split; [|intros c' [=]]. split; [intros (c' & [=])|]. intros (_ & F & _). exfalso. inversion F as [|? ? I].
        apply section_known in I. contradiction. }
    assert (Kn : In s [B "wrap-file"; B "wrap-git"; B "provide"]) by (apply section_known; congruence).
    assert (Fk : forall P : Prop, (Forall (fun s => In s [B "wrap-file"; B "wrap-git"; B "provide"]) (s :: headers ls) /\ P)
        <-> (Forall (fun s => In s [B "wrap-file"; B "wrap-git"; B "provide"]) (headers ls) /\ P)).
    { intros P. split; intros (F & H); (split; [|exact H]); [inversion F; assumption|constructor; assumption]. }
    rewrite Fk. destruct (section_cases s t Es) as [(-> & E2) | (E1 & E2 & E3)].
    + rewrite E2, beqb_refl. cbn [negb]. fold (kinds ls).
      destruct (IH (Some s) (mkCtx (wtyp c) (fields c) TProvide (have_type c) true) O
                  ltac:(intros s' [= <-]; exact Es) Nd) as (A & Bc). cbn [fields have_type wtyp] in A, Bc.
      split; [exact A|exact Bc].
    + rewrite E2. cbn [negb length]. fold (kinds ls).
      replace (match t with TProvide => Some (mkCtx (wtyp c) (fields c) TProvide (have_type c) true)
        | _ => if have_type c then None else Some (mkCtx t (fields c) t true (has_provides c)) end)
        with (if have_type c then None else Some (mkCtx t (fields c) t true (has_provides c)))
        by (destruct t; congruence).
      destruct (have_type c) eqn:Ht.
      * split; [|intros c' [=]]. split; [intros (c' & [=])|]. intros (_ & _ & L & _). cbn [one] in L. lia.
      * destruct (IH (Some s) (mkCtx t (fields c) t true (has_provides c)) O
                  ltac:(intros s' [= <-]; exact Es) Nd) as (A & Bc). cbn [fields have_type wtyp one] in A, Bc.
        cbn [one]. split; [exact A|]. intros c' H. destruct (Bc c' H) as (B1 & B2). split; [exact B1|].
        assert (K0 : kinds ls = []).
        { destruct (proj1 A (ex_intro _ c' H)) as (_ & _ & L & _). destruct (kinds ls); [reflexivity|cbn in L; lia]. }
        rewrite K0 in B2. rewrite B2. exact E3.
Qed.

(** ** which fields *)
Ltac by_cases h :=
  vm_compute;
  repeat match goal with |- context [h ?x] => generalize (h x); intro end; clear;
  repeat (match goal with |- context [if ?b then _ else _] => is_var b; destruct b end;
      try (split; [discriminate|intros H; exfalso; intuition discriminate]));
  (split; [intros _; intuition congruence|reflexivity]).

Lemma validate_fit : forall c, wtyp c <> TProvide ->
  (validate c = true <-> fit (wtyp c = TGit) (fields c)).
Proof.
  intros c Nt. unfold fit.
  rewrite <- !has_given. unfold validate, field_names, field_req.
  assert (G : forall h : bytes -> bool, forall t : wtype, t <> TProvide ->
    (forallb (fun k => match (
      let is (s : string) := beqb k (B s) in
      let patch := h (B "patch_url") || h (B "patch_filename") || h (B "patch_hash") in
      if is "directory"%string || is "diff_files"%string || is "wrapdb_version"%string then Optional
      else if is "patch_directory"%string then if patch then Invalid else Optional
      else if is "patch_url"%string || is "patch_hash"%string || is "patch_fallback_url"%string
      then if patch then Optional else Invalid
      else if is "patch_filename"%string then if patch then Required else Invalid
      else match t with
       | TFile =>
           if is "source_filename"%string
           then if h (B "source_url") then Required else Optional
           else if is "source_url"%string || is "source_hash"%string || is "source_fallback_url"%string
                   || is "lead_directory_missing"%string then Optional else Invalid
       | TGit =>
           if is "url"%string || is "revision"%string then Required
           else if is "depth"%string || is "clone-recursive"%string || is "push-url"%string then Optional else Invalid
       | TProvide => Invalid
       end) with Optional => true | Required => h k | Invalid => negb (h k) end) field_names = true
    <-> ((h (B "patch_url") = true \/ h (B "patch_hash") = true \/ h (B "patch_fallback_url") = true -> h (B "patch_filename") = true)
      /\ (h (B "patch_directory") = true -> ~ h (B "patch_filename") = true)
      /\ (t = TGit -> h (B "url") = true /\ h (B "revision") = true
        /\ ~ h (B "source_url") = true /\ ~ h (B "source_fallback_url") = true /\ ~ h (B "source_filename") = true
        /\ ~ h (B "source_hash") = true /\ ~ h (B "lead_directory_missing") = true)
      /\ (t <> TGit -> (h (B "source_url") = true -> h (B "source_filename") = true)
        /\ ~ h (B "url") = true /\ ~ h (B "revision") = true /\ ~ h (B "depth") = true /\ ~ h (B "push-url") = true
        /\ ~ h (B "clone-recursive") = true)))).
  { clear. intros h t Nt.
    assert (Y : forall P : Prop, (TGit = TGit -> P) <-> P) by (intros P; split; [intros H; apply H; reflexivity|intros H _; exact H]).
    assert (Y' : forall P : Prop, (TFile <> TGit -> P) <-> P) by (intros P; split; [intros H; apply H; discriminate|intros H _; exact H]).
    assert (Z : forall P : Prop, (TGit <> TGit -> P) <-> True) by (intros P; split; [intros; exact I|intros _ H; exfalso; apply H; reflexivity]).
    assert (Z' : forall P : Prop, (TFile = TGit -> P) <-> True) by (intros P; split; [intros; exact I|intros _ H; discriminate]).
    destruct t; [rewrite Y', Z'|rewrite Y, Z|congruence]; clear.
    - by_cases h.
    - by_cases h. }
  apply (G (fun k => has k (fields c)) (wtyp c) Nt).
Qed.

(** ** Hashes *)
Lemma sha_now : forall d, (N.of_nat (length d) < 2 ^ 61)%N ->
  calc_sha_256 (length d + 3) (numbers d) = Some (SHA256 (numbers d)).
Proof.
  intros d L. set (input := numbers d).
  assert (Fb : Forall byte input).
  { unfold input, numbers. apply Forall_forall. intros x I. apply in_map_iff in I as (c & <- & _).
    unfold byte. pose proof (N_ascii_bounded c). lia. }
  assert (Ll : length input = length d) by (unfold input, numbers; apply map_length).
  assert (L' : (N.of_nat (length input) < 2 ^ 61)%N) by (rewrite Ll; exact L).
  rewrite <- Ll. clearbody input. unfold calc_sha_256, init_buf_state. rewrite h_initial.
  assert (S0 := initial_small). unfold SHA256. generalize dependent initial. intros init S0.
  rewrite (chunks_blocks (length input / 64) input _ init (length input + 3) eq_refl Fb S0).
  2:{ apply Nat.add_le_mono_r. apply Nat.div_le_upper_bound; lia. }
  cbn [option_map]. rewrite pad_ending by exact L'.
  generalize (listed (fold_left compress (blocks (length (ending input (N.of_nat (length input))) / 64) (ending input (N.of_nat (length input)))) init)).
  intros l. f_equal. induction l as [|x l IH]; [reflexivity|]. cbn [flat_map]. rewrite IH. f_equal. apply byte_4.
Qed.

Definition table : list (ascii * nat) :=
  combine (B "0123456789abcdef") (seq 0 16) ++ combine (B "0123456789ABCDEF") (seq 0 16).

Lemma nth_combine : forall (l : bytes) n i c, nth_error l n = Some c -> In (c, i + n) (combine l (seq i (length l))).
Proof.
  induction l as [|x l IH]; intros [|n] i c H; try discriminate; cbn [length seq combine].
  - injection H as ->. left. f_equal. lia.
  - right. replace (i + S n) with (S i + n) by lia. apply IH. exact H.
Qed.

Lemma in_table : forall c n, digit c n -> In (c, n) table.
Proof.
  intros c n [H|H]; apply in_or_app; [left|right]; apply (nth_combine _ n 0 c) in H; exact H.
Qed.

Lemma pair_value : forall a b x y, digit a x -> digit b y ->
  (strtol16 [a; b] mod 256)%Z = Z.of_nat (16 * x + y).
Proof.
  assert (A : forallb (fun p => forallb (fun q => (strtol16 [fst p; fst q] mod 256 =? Z.of_nat (16 * snd p + snd q))%Z) table) table = true)
    by (vm_compute; reflexivity).
  intros a b x y Ha Hb. apply in_table in Ha, Hb. rewrite forallb_forall in A. specialize (A _ Ha).
  cbv beta in A. rewrite forallb_forall in A. specialize (A _ Hb). cbn [fst snd] in A. apply Z.eqb_eq in A. exact A.
Qed.

Lemma same_spells : forall l s, hex s -> (same_hash s l = true <-> spells s l).
Proof.
  induction l as [|n l IH]; intros [|a [|b s]] H; cbn [same_hash spells]; try (split; [discriminate|tauto]); [tauto|].
  inversion H as [|? ? (x & Hx) H1]; subst. inversion H1 as [|? ? (y & Hy) H2]; subst.
  rewrite (pair_value a b x y Hx Hy). destruct (Z.eqb_spec (Z.of_nat (16 * x + y)) (Z.of_N n)) as [E|E].
  - rewrite (IH s H2). split; [|tauto]. intros Q. split; [|exact Q]. exists x, y. repeat split; try assumption. lia.
  - split; [discriminate|]. intros ((x' & y' & Hx' & Hy' & En) & _). exfalso. apply E.
    rewrite <- (pair_value a b x y Hx Hy), (pair_value a b x' y' Hx' Hy'). lia.
Qed.

(** ** Lists of patches *)
Lemma skip_blanks_all : forall ws s, Forall blank ws -> skip_blanks (ws ++ s) = skip_blanks s.
Proof.
  induction ws as [|c ws IH]; intros s F; [reflexivity|]. inversion F as [|? ? Hc Fw]; subst. cbn [app skip_blanks].
  replace (ceqb c " "%char || ceqb c CR || ceqb c TAB)%bool with true by (destruct Hc as [->|[-> | ->]]; reflexivity).
  apply IH. exact Fw.
Qed.

Lemma skip_none : forall c t, ~ blank c -> skip_blanks (c :: t) = c :: t.
Proof.
  intros c t N. cbn [skip_blanks].
  destruct (ceqb_spec c " "%char) as [->|]; [exfalso; apply N; left; reflexivity|].
  destruct (ceqb_spec c CR) as [->|]; [exfalso; apply N; right; left; reflexivity|].
  destruct (ceqb_spec c TAB) as [->|]; [exfalso; apply N; right; right; reflexivity|]. reflexivity.
Qed.

(** up to the last character of a name *)
Lemma diff_chars : forall f a b cur fuel t, ~ In NUL f -> ~ In ","%char f -> a <> NUL -> b = NUL \/ b = ","%char -> a <> ","%char ->
  diff_loop (length f + S fuel) cur (f ++ a :: b :: t)
  = let g := (cur ++ f) ++ [a] in
    if ceqb b NUL then ([g], Good)
    else match skip_blanks t with
         | [] => ([g], Beyond)
         | c :: t' => if ceqb c NUL then ([g], Good) else let '(l, o) := diff_loop fuel [c] t' in (g :: l, o)
         end.
Proof.
  induction f as [|x f IH]; intros a b cur fuel t N0 N1 A0 Hb A1.
  - cbn [length plus app diff_loop]. destruct (ceqb_spec a NUL) as [|_]; [contradiction|].
    replace (ceqb b ","%char || ceqb b NUL)%bool with true by (destruct Hb as [-> | ->]; reflexivity).
    rewrite app_nil_r. reflexivity.
  - cbn [length plus app].
    assert (Nx : ceqb x NUL = false) by (apply ceqb_neq; intros ->; apply N0; left; reflexivity).
    assert (H : exists y r, f ++ a :: b :: t = y :: r /\ ceqb y ","%char = false /\ ceqb y NUL = false).
    { destruct f as [|y f]; [exists a, (b :: t)|exists y, (f ++ a :: b :: t)]; (split; [reflexivity|]); split; apply ceqb_neq; try assumption.
      - intros ->. apply N1. right. left. reflexivity.
      - intros ->. apply N0. right. left. reflexivity. }
    destruct H as (y & r & E & E1 & E2). rewrite E. cbn [diff_loop]. rewrite Nx, E1, E2. cbn [orb]. rewrite <- E.
    rewrite IH; try assumption; [|intros I; apply N0; right; exact I|intros I; apply N1; right; exact I].
    replace ((cur ++ [x]) ++ f) with (cur ++ x :: f) by (rewrite <- app_assoc; reflexivity). reflexivity.
Qed.

Lemma split_last : forall (f : bytes), f <> [] -> exists g a, f = g ++ [a].
Proof. intros f N. destruct (exists_last N) as (g & a & ->). exists g, a. reflexivity. Qed.

Lemma listed_name : forall fs s, separated fs s -> Forall name_ok fs -> exists c t, s = c :: t /\ ~ blank c /\ c <> NUL.
Proof.
  intros fs s H F. destruct H as [f|f fs ws s Fw H]; inversion F as [|? ? (N0 & _ & c & t & -> & Nb) _]; subst.
  - exists c, t. split; [reflexivity|]. split; [exact Nb|]. intros ->. apply N0. left. reflexivity.
  - exists c, (t ++ ","%char :: ws ++ s). split; [reflexivity|]. split; [exact Nb|]. intros ->. apply N0. left. reflexivity.
Qed.

Lemma diff_listed : forall fs s, separated fs s -> Forall name_ok fs -> Forall (fun f => 2 <= length f) (tl fs) ->
  forall fuel cur rest junk, s = cur ++ rest -> length cur <= 1 -> (length cur = 1 -> 2 <= length (hd [] fs)) ->
  length s < fuel -> diff_loop fuel cur (rest ++ NUL :: junk) = (fs, Good).
Proof.
  intros fs s H. induction H as [f|f fs ws s Fw H IH]; intros F L2 fuel cur rest junk E Lc L1 Lf.
  - destruct (Forall_inv F) as (N0 & N1 & c & t & Ef & Nb). cbn [hd] in L1.
    assert (Nr : rest <> []).
    { intros ->. rewrite app_nil_r in E. assert (Lq : 1 <= length cur) by (rewrite <- E, Ef; cbn; lia).
      rewrite E in L1. specialize (L1 ltac:(lia)). lia. }
    destruct (split_last rest Nr) as (g & a & ->). rewrite E in N0, N1.
    replace fuel with (length g + S (fuel - length g - 1)) by (rewrite E, !app_length in Lf; cbn [length] in Lf; lia).
    rewrite <- app_assoc. cbn [app]. rewrite diff_chars.
    + rewrite ceqb_refl. cbn zeta. rewrite <- app_assoc, E. reflexivity.
    + intros I. apply N0. apply in_or_app. right. apply in_or_app. left. exact I.
    + intros I. apply N1. apply in_or_app. right. apply in_or_app. left. exact I.
    + intros ->. apply N0. apply in_or_app. right. apply in_or_app. right. left. reflexivity.
    + left. reflexivity.
    + intros ->. apply N1. apply in_or_app. right. apply in_or_app. right. left. reflexivity.
  - destruct (Forall_inv F) as (N0 & N1 & c & t & Ef & Nb). pose proof (Forall_inv_tail F) as F'. subst f. cbn [hd tl] in L1, L2.
    (* the name without what was read of it *)
    assert (Q : exists g a, c :: t = cur ++ g ++ [a] /\ rest = g ++ a :: ","%char :: ws ++ s).
    { destruct cur as [|x [|]]; [| |cbn in Lc; lia].
      - destruct (split_last (c :: t) ltac:(discriminate)) as (g & a & Eg). exists g, a. split; [exact Eg|].
        cbn [app] in E. rewrite <- E, app_comm_cons, Eg, <- app_assoc. reflexivity.
      - cbn [app] in E. injection E as <- <-. specialize (L1 eq_refl). cbn in L1.
        destruct t as [|y t]; [cbn in L1; lia|]. destruct (split_last (y :: t) ltac:(discriminate)) as (g & a & Eg).
        exists g, a. split; [rewrite Eg; reflexivity|]. rewrite Eg, <- app_assoc. reflexivity. }
    destruct Q as (g & a & Eg & ->). rewrite Eg in N0, N1.
    assert (Ls : length (c :: t) = length cur + length g + 1) by (rewrite Eg, !app_length; cbn [length]; lia).
    rewrite !app_length in Lf. cbn [length] in Lf, Ls. rewrite app_length in Lf.
    replace fuel with (length g + S (fuel - length g - 1)) by lia.
    replace ((g ++ a :: ","%char :: ws ++ s) ++ NUL :: junk) with (g ++ a :: ","%char :: (ws ++ s ++ NUL :: junk))
      by (rewrite <- !app_assoc; cbn [app]; rewrite <- app_assoc; reflexivity).
    rewrite diff_chars.
    + change (ceqb ","%char NUL) with false. cbn zeta iota. rewrite skip_blanks_all by exact Fw.
      destruct (listed_name fs s H F') as (c2 & t2 & -> & Nb2 & N2). cbn [app]. rewrite skip_none by exact Nb2.
      destruct (ceqb_spec c2 NUL) as [|_]; [contradiction|].
      assert (Lt : Forall (fun f => 2 <= length f) (tl fs)) by (destruct fs; [constructor|inversion L2; assumption]).
      rewrite (IH F' Lt (fuel - length g - 1) [c2] t2 junk eq_refl).
      * rewrite <- app_assoc, <- Eg. reflexivity.
      * cbn. lia.
      * intros _. destruct fs; [inversion H|inversion L2; assumption].
      * cbn [length] in *. lia.
    + intros I. apply N0. apply in_or_app. right. apply in_or_app. left. exact I.
    + intros I. apply N1. apply in_or_app. right. apply in_or_app. left. exact I.
    + intros ->. apply N0. apply in_or_app. right. apply in_or_app. right. left. reflexivity.
    + right. reflexivity.
    + intros ->. apply N1. apply in_or_app. right. apply in_or_app. right. left. reflexivity.
Qed.

(** ** What is done *)
Lemma get_value : forall k l, get k l = value k l.
Proof.
  unfold value. induction l as [|[a v] l IH]; [reflexivity|]. cbn [get find fst].
  destruct (beqb a k); [reflexivity|exact IH].
Qed.

(** every action that was done from [h] on was allowed when it was done *)
Definition steps (P : list action -> action -> Prop) (h h' : list action) : Prop :=
  exists t, h' = h ++ t /\ forall h1 a h2, t = h1 ++ a :: h2 -> P (h ++ h1) a.

Lemma steps_none : forall P h, steps P h h.
Proof. intros P h. exists []. split; [symmetry; apply app_nil_r|]. intros [|y l] a h2 [=]. Qed.

Lemma steps_one : forall (P : list action -> action -> Prop) h a, P h a -> steps P h (h ++ [a]).
Proof.
  intros P h a H. exists [a]. split; [reflexivity|]. intros [|x h1] b h2 E.
  - injection E as <- <-. rewrite app_nil_r. exact H.
  - destruct h1; discriminate.
Qed.

Lemma steps_more : forall P h1 h2 h3, steps P h1 h2 -> steps P h2 h3 -> steps P h1 h3.
Proof.
  intros P h1 h2 h3 (t & -> & A) (u & -> & C). exists (t ++ u). split; [symmetry; apply app_assoc|].
  intros g a r. revert h1 A C g. induction t as [|x t IH]; intros h1 A C g E.
  - cbn [app] in E. rewrite app_nil_r in C. exact (C g a r E).
  - destruct g as [|y g]; cbn [app] in E; injection E as <- E.
    + rewrite app_nil_r. specialize (A [] x t eq_refl). rewrite app_nil_r in A. exact A.
    + replace (h1 ++ x :: g) with ((h1 ++ [x]) ++ g) by (rewrite <- app_assoc; reflexivity). apply IH.
      * intros p b q Eq. rewrite <- app_assoc. cbn [app]. apply (A (x :: p) b q). rewrite Eq. reflexivity.
      * intros p b q Eq. rewrite <- !app_assoc. cbn [app]. specialize (C p b q Eq). rewrite <- app_assoc in C. exact C.
      * exact E.
Qed.

Lemma steps_then : forall P h x k,
  steps P h (fst x) -> (forall h', steps P h h' -> steps P h (fst (k h'))) -> steps P h (fst (andthen x k)).
Proof. intros P h [h' o] k H K. cbn [fst] in H. destruct o; cbn [andthen fst]; try exact H. apply K. exact H. Qed.

Lemma pf_steps : forall (P : list action -> action -> Prop) w name url hash sub dest dl h,
  (forall s d, (forall x, hash = Some x -> checksum d x = true) ->
     (exists n, name = Some n /\ join_paths [sub; B "packagefiles"; n] = Some s) -> file_at w h s = Some d -> P h (Extract d dest)) ->
  (forall s, (exists n, name = Some n /\ join_paths [sub; B "packagefiles"; n] = Some s) ->
     dir_at w h s = true -> P h (CopyDir s dest)) ->
  (forall s u, (exists n, name = Some n /\ join_paths [sub; B "packagefiles"; n] = Some s) ->
     file_at w h s = None -> dir_at w h s = false -> url = Some u -> dl = true -> P h (Fetch u)) ->
  (forall u d, (forall x, hash = Some x -> checksum d x = true) -> url = Some u -> net w h u = Some d ->
     P (h ++ [Fetch u]) (Extract d dest)) ->
  steps P h (fst (packagefiles w name url hash sub dest dl h)).
Proof.
  intros P w name url hash sub dest dl h H1 H2 H3 H4. unfold packagefiles.
  destruct name as [n|]; [|apply steps_none]. destruct (path_join sub (B "packagefiles")) as [dir|] eqn:Ed; [|apply steps_none].
  destruct (path_push dir n) as [src|] eqn:Es; [|apply steps_none].
  assert (J : exists n', Some n = Some n' /\ join_paths [sub; B "packagefiles"; n'] = Some src).
  { exists n. split; [reflexivity|]. unfold join_paths. cbn [join_paths_from]. unfold path_join in Ed.
    destruct (path_push [] sub) as [s|]; [|discriminate]. rewrite Ed, Es. reflexivity. }
  destruct (file_at w h src) as [d|] eqn:Ef.
  - unfold checksum_extract, act. destruct hash as [x|].
    + destruct (checksum d x) eqn:Ec; [|apply steps_none]. apply steps_one. apply (H1 src d); [intros y [= <-]; exact Ec|exact J|exact Ef].
    + apply steps_one. apply (H1 src d); [intros y [=]|exact J|exact Ef].
  - destruct (dir_at w h src) eqn:Ed2; [apply steps_one; apply H2; assumption|].
    destruct url as [u|]; [|apply steps_none]. destruct dl; [|apply steps_none]. cbn [negb]. unfold fetch.
    assert (Sf : steps P h (h ++ [Fetch u])) by (apply steps_one; apply (H3 src u); assumption || reflexivity).
    destruct (net w h u) as [d|] eqn:En; [|exact Sf]. unfold checksum_extract, act. destruct hash as [x|].
    + destruct (checksum d x) eqn:Ec; [|exact Sf]. apply (steps_more P _ _ _ Sf). apply steps_one.
      apply H4; [intros y [= <-]; exact Ec|reflexivity|exact En].
    + apply (steps_more P _ _ _ Sf). apply steps_one. apply H4; [intros y [=]|reflexivity|exact En].
Qed.

Lemma each_steps : forall (P : list action -> action -> Prop) w dir dest l o h,
  (forall h p, P h (Patch p dest)) -> steps P h (fst (apply_each w dir dest l o h)).
Proof.
  intros P w dir dest l o. induction l as [|f l IH]; intros h H; cbn [apply_each]; [apply steps_none|].
  destruct (path_join dir f) as [p|]; [|apply steps_none]. unfold act.
  destruct (works w h (Patch p dest)); cbn [andthen]; [|apply steps_one; apply H].
  apply (steps_more P _ (h ++ [Patch p dest])); [apply steps_one; apply H|apply IH; exact H].
Qed.
