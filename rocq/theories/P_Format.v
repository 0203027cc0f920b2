(** Properties of string formatting, number conversion and indexing. *)
From Verif Require Import Base M_Format S_Format L_Format.
Local Arguments B _ : simpl never.

(** ** C22 *)
(** Whatever the keys stand for, formatting gives the text the specification describes,
    unless an escaped '@' comes while an unescaped '@' is still open. *)
Theorem C22_format_partial : forall (meaning : bytes -> cb_result) s, format_clean meaning s = true ->
  exists F, forall f, F <= f ->
    string_format meaning f s = match format_spec meaning s with Some o => FOk o | None => FErr end.
Proof. exact string_format_spec. Qed.
Print Assumptions C22_format_partial.

(** What a key stands for in 'text'.format(args): an integer (with optional blanks and sign)
    is an index into the arguments, anything else is not a reference. *)
Theorem C22_keys : forall args key, key <> [] -> (Z.of_nat (length args) < 2 ^ 32)%Z ->
  (forall z, reads_as key z -> format_cb args key = match py_index args z with Some t => CbFound t | None => CbError end) /\
  ((forall z, ~ reads_as key z) -> format_cb args key = CbSkip).
Proof.
  intros args key Hk Hl. unfold format_cb. pose proof (str_to_i_key key Hk) as H.
  destruct (str_to_i key false) as [v|]; [|split; [intros z Hz; now apply H in Hz|reflexivity]].
  destruct H as (z0 & Hz0 & ->). split; [|intros No; now apply No in Hz0].
  intros z Hz. assert (z = z0) as ->.
  { clear - Hz Hz0. destruct Hz as (ws & sg & ds & E & H1 & H2 & H3). destruct Hz0 as (ws' & sg' & ds' & E' & H1' & H2' & H3').
    destruct H2 as [Hne Hd]. destruct H2' as [Hne' Hd']. destruct ds as [|d ds]; [contradiction|]. destruct ds' as [|d' ds']; [contradiction|].
    assert (D : is_digit d = true) by (cbn [forallb] in Hd; now apply andb_true_iff in Hd).
    assert (D' : is_digit d' = true) by (cbn [forallb] in Hd'; now apply andb_true_iff in Hd').
    pose proof (digit_not_space d D) as Sd. pose proof (digit_not_space d' D') as Sd'.
    destruct (digit_not_sign d D) as [Sg1 Sg2]. destruct (digit_not_sign d' D') as [Sg1' Sg2'].
    assert (X : dropw c_isspace key = sg ++ d :: ds).
    { rewrite E, dropw_app by auto. destruct H3 as [[[->| ->] _]|[-> _]]; cbn [app dropw B]; [now rewrite Sd|reflexivity|reflexivity]. }
    assert (X' : dropw c_isspace key = sg' ++ d' :: ds').
    { rewrite E', dropw_app by auto. destruct H3' as [[[->| ->] _]|[-> _]]; cbn [app dropw B]; [now rewrite Sd'|reflexivity|reflexivity]. }
    rewrite X in X'.
    destruct H3 as [[[->| ->] ->]|[-> ->]]; destruct H3' as [[[->| ->] ->]|[-> ->]];
      repeat match goal with |- context [B ?s] => idtac end;
      change (B "+") with ["+"%char] in *; change (B "-") with ["-"%char] in *; cbn [app] in X'; inversion X'; subst; auto; discriminate. }
  unfold bounds_adjust, py_index, clamp, LONG_MIN, LONG_MAX in *. set (n := Z.of_nat (length args)) in *.
  assert (0 <= n)%Z by (unfold n; lia). change (2 ^ 32)%Z with 4294967296%Z in Hl.
  assert (NE : forall j, (n <= j)%Z -> nth_error args (Z.to_nat j) = None) by (intros j Hj; apply nth_error_None; unfold n in *; lia).
  set (c := Z.max (-9223372036854775808) (Z.min 9223372036854775807 z0)).
  destruct (Z.leb_spec 0 z0) as [P|P].
  - destruct (Z.ltb_spec c 0) as [Q|Q]; [unfold c in Q; lia|]. destruct (Z.ltb_spec c n) as [R|R].
    + assert (c = z0) as -> by (unfold c in *; lia). destruct (Z.leb_spec 0 z0); [|lia]. reflexivity.
    + rewrite NE by (unfold c in *; lia). reflexivity.
  - destruct (Z.ltb_spec c 0) as [Q|Q]; [|unfold c in Q; lia].
    destruct (Z.ltb_spec (c + n) n) as [R|R]; [|lia].
    destruct (Z.leb_spec (- n) z0) as [S|S].
    + assert (c = z0) as -> by (unfold c in *; lia). destruct (Z.leb_spec 0 (z0 + n)); [|lia]. rewrite Z.add_comm. reflexivity.
    + destruct (Z.leb_spec 0 (c + n)) as [T|T]; [unfold c in *; lia|]. reflexivity.
Qed.
Print Assumptions C22_keys.

(** text without '@' is unchanged, whatever the arguments *)
Theorem C22_plain_text : forall meaning s, ~ In "@"%char s ->
  exists F, forall f, F <= f -> string_format meaning f s = FOk s.
Proof.
  intros m s H.
  assert (P : plain_run s []).
  { clear - H. induction s as [|c s IH]; [exact I|]. simpl in H. split; [intros ->; apply H; now left|]. split.
    - rewrite app_nil_r. unfold esc_here. destruct s as [|x s]; [apply andb_false_r|].
      destruct (ceqb_spec x AT) as [->|]; [exfalso; apply H; right; now left|apply andb_false_r].
    - apply IH. tauto. }
  assert (C : forall n s, plain_run s [] -> fmt_clean m n s = true).
  { induction n as [|n IH]; [reflexivity|]. intros [|c r]; [reflexivity|]. intros (P1 & P2 & P3).
    rewrite app_nil_r in P2. cbn [fmt_clean]. fold AT. fold (esc_here c r). rewrite P2. apply ceqb_neq in P1. rewrite P1. auto. }
  destruct (C22_format_partial m s (C _ _ P)) as [F HF]. exists F. intros f Hf. rewrite (HF f Hf).
  unfold format_spec. rewrite spec_plain_tail by (auto; lia). reflexivity.
Qed.
Print Assumptions C22_plain_text.
Example C22_witness :
  format_method 200 (B "x @0@@1@ \@ a@b @-1@ @@ @z@ @") [B "foo"; B "bar"] = FOk (B "x foobar @ a@b bar @@ @z@ @") /\
  format_clean (format_cb [B "foo"; B "bar"]) (B "x @0@@1@ \@ a@b @-1@ @@ @z@ @") = true /\
  format_spec (format_cb [B "foo"; B "bar"]) (B "x @0@@1@ \@ a@b @-1@ @@ @z@ @") = Some (B "x foobar @ a@b bar @@ @z@ @").
Proof. vm_compute. auto. Qed.
(** The excluded case is wrong in the code: text is duplicated. *)
Theorem C22_open_at_refuted : exists s, ~ (exists f, format_method f s [] = match format_spec (format_cb []) s with Some o => FOk o | None => FErr end)
  /\ format_method 20 s [] = FOk (B "a@a@b@c").
Proof.
  exists (B "a@b\@c"). split; [|vm_compute; reflexivity]. intros [f Hf].
  assert (E : forall g, format_method (20 + g) (B "a@b\@c") [] = FOk (B "a@a@b@c")) by (intros g; vm_compute; reflexivity).
  destruct (le_lt_dec 20 f) as [L|L].
  - replace f with (20 + (f - 20)) in Hf by lia. rewrite E in Hf. vm_compute in Hf. discriminate.
  - do 20 (destruct f as [|f]; [vm_compute in Hf; discriminate|]). lia.
Qed.
Print Assumptions C22_open_at_refuted.

(** ** C40 *)
(** Indices from -len to len-1 select the element Python would select; larger ones are an
    error (or give the fallback). *)
Theorem C40_indexing_partial : forall {A} (l : list A) i fb, (- Z.of_nat (length l) <= i)%Z ->
  interp_index_array l i = match py_index l i with Some x => IdxOk x | None => IdxErr end /\
  func_array_get l i fb = match py_index l i with Some x => IdxOk x | None => match fb with Some d => IdxOk d | None => IdxErr end end.
Proof.
  intros A l i fb H. unfold interp_index_array, func_array_get, bounds_adjust, py_index, obj_array_index.
  set (n := Z.of_nat (length l)) in *.
  assert (NE : forall j, (0 <= j)%Z -> nth_error l (Z.to_nat j) = None <-> (n <= j)%Z) by (intros j Hj; rewrite nth_error_None; unfold n; lia).
  destruct (Z.ltb_spec i 0) as [L|L].
  - destruct (Z.leb_spec 0 i); [lia|]. destruct (Z.ltb_spec (i + n) n); [|lia]. destruct (Z.leb_spec 0 (i + n)); [|lia].
    destruct (Z.leb_spec (- n) i); [|lia]. rewrite (Z.add_comm i n) in *.
    destruct (nth_error l (Z.to_nat (n + i))) eqn:E; [auto|]. apply NE in E; lia.
  - destruct (Z.leb_spec 0 i); [|lia]. destruct (Z.ltb_spec i n).
    + destruct (nth_error l (Z.to_nat i)) eqn:E; [auto|]. apply NE in E; lia.
    + rewrite (proj2 (NE i ltac:(lia))) by lia. auto.
Qed.
Print Assumptions C40_indexing_partial.
Theorem C40_in_bounds_iff : forall {A} (l : list A) i,
  (exists x, interp_index_array l i = IdxOk x) <-> (- Z.of_nat (length l) <= i < Z.of_nat (length l))%Z.
Proof.
  intros A l i. unfold interp_index_array, bounds_adjust, obj_array_index. set (n := Z.of_nat (length l)).
  destruct (Z.ltb_spec i 0) as [L|L].
  - destruct (Z.ltb_spec (i + n) n); [|lia]. destruct (Z.leb_spec 0 (i + n)) as [P|P].
    + destruct (nth_error l (Z.to_nat (i + n))) eqn:E.
      * split; [lia|]. intros _. eauto.
      * apply nth_error_None in E. unfold n in *. lia.
    + split; [intros [x Hx]; discriminate|lia].
  - destruct (Z.ltb_spec i n) as [P|P].
    + destruct (Z.leb_spec 0 i); [|lia]. destruct (nth_error l (Z.to_nat i)) eqn:E.
      * split; [lia|]. eauto.
      * apply nth_error_None in E. unfold n in *. lia.
    + split; [intros [x Hx]; discriminate|lia].
Qed.
Print Assumptions C40_in_bounds_iff.
(** Below -len the index is accepted by the bounds check and goes on to an assertion (or, for
    strings, a read before the text) instead of an error or the fallback. *)
Theorem C40_below_refuted : forall {A} (l : list A) i fb, (i < - Z.of_nat (length l))%Z ->
  interp_index_array l i = IdxCrash /\ func_array_get l i fb = IdxCrash.
Proof.
  intros A l i fb H. unfold interp_index_array, func_array_get, bounds_adjust, obj_array_index.
  destruct (Z.ltb_spec i 0); [|lia]. destruct (Z.ltb_spec (i + Z.of_nat (length l)) (Z.of_nat (length l))); [|lia].
  destruct (Z.leb_spec 0 (i + Z.of_nat (length l))); [lia|]. auto.
Qed.
Print Assumptions C40_below_refuted.
Example C40_witness : interp_index_array [10; 20; 30] (-3)%Z = IdxOk 10 /\ interp_index_array [10; 20; 30] 2%Z = IdxOk 30
  /\ interp_index_array [10; 20; 30] 3%Z = IdxErr /\ func_array_get [10] 5%Z (Some 7) = IdxOk 7 /\ interp_index_array [10; 20; 30] (-4)%Z = IdxCrash.
Proof. vm_compute. repeat split. Qed.

(** ** C77 *)
Definition int64 (z : Z) := (- 2 ^ 63 <= z < 2 ^ 63)%Z.
(** converting a number to text and back gives the number *)
Theorem C77_to_string_to_int : forall z, int64 z -> string_to_int (number_to_string z) = Some z.
Proof.
  intros z H. unfold string_to_int, str_to_i. pose proof (number_to_string_reads z) as R.
  destruct (dropw_inv (f := is_whitespace) (number_to_string z)) as (ws & E & Hws & _).
  rewrite E in R. rewrite reads_as_drop_ws in R by auto.
  pose proof (strtol_reads _ z [] R I) as S. rewrite app_nil_r in S. rewrite S. cbn [dropw].
  f_equal. unfold clamp, LONG_MAX, LONG_MIN, int64 in *. lia.
Qed.
Print Assumptions C77_to_string_to_int.
(** what to_int accepts, and the value: an integer with blanks around it, within 64 bits *)
Theorem C77_to_int_partial : forall s, forallb is_whitespace s = false ->
  match string_to_int s with
  | Some v => exists k ws z, s = k ++ ws /\ forallb is_whitespace ws = true /\ reads_as k z /\ (int64 z -> v = z)
  | None => forall k ws z, forallb is_whitespace ws = true -> reads_as k z -> s <> k ++ ws
  end.
Proof.
  intros s Hs. unfold string_to_int, str_to_i.
  destruct (dropw_inv (f := is_whitespace) s) as (w1 & E & Hw1 & Hh). set (s1 := dropw is_whitespace s) in *.
  destruct (strtol s1) as [v rest] eqn:Es. destruct (dropw_inv (f := is_whitespace) rest) as (w2 & E2 & Hw2 & Hh2).
  destruct (strtol_inv _ _ _ Es) as [(k & z & E1 & R & -> & Hr)|(-> & -> & No)].
  - destruct (dropw is_whitespace rest) as [|c r] eqn:Ed.
    + exists (w1 ++ k), rest, z. split; [rewrite E, E1, app_assoc; reflexivity|]. split; [rewrite E2, app_nil_r; exact Hw2|].
      split; [now apply reads_as_drop_ws|]. unfold int64, clamp, LONG_MIN, LONG_MAX. lia.
    + intros k' ws z' Hws R' E'.
      (* then strtol reads k' and leaves ws *)
      assert (Dk : exists w0, s1 ++ [] = w0 ++ ws /\ reads_as w0 z').
      { destruct (dropw_inv (f := is_whitespace) k') as (w0 & Ek & Hw0 & Hk). remember (dropw is_whitespace k') as k2 eqn:Ek2. clear Ek2.
        subst k'. rewrite reads_as_drop_ws in R' by auto.
        exists k2. split; [|exact R']. rewrite app_nil_r. unfold s1. rewrite E', <- app_assoc, dropw_app by auto.
        destruct k2 as [|x y].
        - exfalso. destruct R' as (a & b & d & R1 & _ & [R2 _] & _). symmetry in R1. apply app_eq_nil in R1 as [_ R1]. apply app_eq_nil in R1 as [_ R1]. contradiction.
        - cbn [app dropw]. now rewrite Hk. }
      rewrite app_nil_r in Dk. destruct Dk as (w0 & E0 & R0).
      assert (Hnd : nondigit_head ws).
      { destruct ws as [|x ws]; [exact I|]. cbn [forallb] in Hws. apply andb_true_iff in Hws as [Hx _]. simpl. exact (proj2 (is_ws_space x Hx)). }
      pose proof (strtol_reads w0 z' ws R0 Hnd) as S. rewrite <- E0, Es in S. injection S as _ Erest.
      assert (Hall : dropw is_whitespace rest = []).
      { rewrite Erest. clear - Hws. induction ws as [|x ws IH]; [reflexivity|]. cbn [forallb dropw] in *. apply andb_true_iff in Hws as [-> H]. auto. }
      rewrite Hall in Ed. discriminate.
  - destruct (dropw is_whitespace s1) as [|c r] eqn:Ed.
    + exfalso. assert (F : forallb is_whitespace s = true); [|congruence]. rewrite E, forallb_app, Hw1.
      rewrite E2, app_nil_r. rewrite Hw2. reflexivity.
    + intros k' ws z' Hws R' E'.
      destruct (dropw_inv (f := is_whitespace) k') as (w0 & Ek & Hw0 & Hk). remember (dropw is_whitespace k') as k2 eqn:Ek2. clear Ek2.
      subst k'. rewrite reads_as_drop_ws in R' by auto.
      apply (No k2 ws z' R').
      unfold s1. rewrite E', <- app_assoc, dropw_app by auto.
      destruct k2 as [|x y].
      * exfalso. destruct R' as (a & b & d & R1 & _ & [R2 _] & _). symmetry in R1. apply app_eq_nil in R1 as [_ R1]. apply app_eq_nil in R1 as [_ R1]. contradiction.
      * cbn [app dropw]. now rewrite Hk.
Qed.
Print Assumptions C77_to_int_partial.
(** a blank text is taken as 0, and numbers beyond 64 bits as the nearest 64-bit number *)
Theorem C77_quirks_refuted : string_to_int [] = Some 0%Z /\ string_to_int (B "  ") = Some 0%Z /\
  (forall k z, reads_as k z -> (2 ^ 63 <= z)%Z -> string_to_int k = Some (2 ^ 63 - 1)%Z).
Proof.
  split; [|split]; [vm_compute; reflexivity..|]. intros k z R H. unfold string_to_int, str_to_i.
  destruct (dropw_inv (f := is_whitespace) k) as (ws & E & Hws & _). rewrite E in R. rewrite reads_as_drop_ws in R by auto.
  pose proof (strtol_reads _ z [] R I) as S. rewrite app_nil_r in S. rewrite S. cbn [dropw].
  f_equal. unfold clamp, LONG_MAX, LONG_MIN. lia.
Qed.
Print Assumptions C77_quirks_refuted.
Example C77_witness : string_to_int (B " -42 ") = Some (-42)%Z /\ number_to_string (-42)%Z = B "-42" /\ string_to_int (B "4x") = None.
Proof. vm_compute. repeat split. Qed.
