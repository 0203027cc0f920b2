(** Files that serial_dump writes are read by serial_load, and their proper prefixes are not. *)
From Coq Require Import NArith.
From Verif Require Import Base M_Serial S_Serial L_Serial.

(** ** More fuel *)
Definition below {A} (x y : res A) : Prop := x = Endless \/ x = y.
Lemma below_refl {A} (x : res A) : below x x.
Proof. now right. Qed.
Lemma below_bind {A C} (x y : res A) (f g : A -> res C) : below x y -> (forall a, below (f a) (g a)) -> below (bind x f) (bind y g).
Proof. intros [->| ->] H; [now left|]. destruct y; cbn [bind]; try (now right). apply H. Qed.
Definition cl_below (cl cl' : wk -> N -> res (wk * N)) : Prop := forall w o, below (cl w o) (cl' w o).
Lemma clone_array_below cl cl' src g : cl_below cl cl' -> forall w r v n h, below (clone_array cl src g w r v n h) (clone_array cl' src (S g) w r v n h).
Proof.
  intros H. induction g as [|g IH]; intros w r v n h; [now left|].
  change (clone_array cl' src (S (S g)) w r v n h) with (do (dst, x) <- cl' w v; do dst <- array_push dst r x;
    if negb h then Ok dst else match get src n with Some (Arr v n _ _ h) => clone_array cl' src (S g) dst r v n h | _ => Abort end).
  cbn [clone_array]. apply below_bind; [apply H|]. intros [w1 x]. apply below_bind; [apply below_refl|]. intros w2. destruct (negb h); [apply below_refl|].
  destruct (get src n) as [[]|]; try apply below_refl. apply IH.
Qed.
Lemma clone_entry_below cl cl' w d k v : cl_below cl cl' -> below (clone_entry cl w d k v) (clone_entry cl' w d k v).
Proof. intros H. unfold clone_entry. apply below_bind; [apply H|]. intros [w1 x]. apply below_bind; [apply H|]. intros [w2 y]. apply below_refl. Qed.
Lemma clone_elems_below cl cl' src g : cl_below cl cl' -> forall w r e, below (clone_elems cl src g w r e) (clone_elems cl' src (S g) w r e).
Proof.
  intros H. induction g as [|g IH]; intros w r e; [now left|].
  change (clone_elems cl' src (S (S g)) w r e) with (do (n, k, v) <- or_abort (bget ELEMS_BUCKET (elems src) e);
    do dst <- clone_entry cl' w r k v; if (n =? 0)%N then Ok dst else clone_elems cl' src (S g) dst r n).
  cbn [clone_elems]. apply below_bind; [apply below_refl|]. intros [[n k] v]. apply below_bind; [now apply clone_entry_below|]. intros w2. destruct (n =? 0)%N; [apply below_refl|]. apply IH.
Qed.
Lemma clone_pairs_below cl cl' ps : cl_below cl cl' -> forall w r, below (clone_pairs cl ps w r) (clone_pairs cl' ps w r).
Proof.
  intros H. induction ps as [|[k v] ps IH]; intros w r; [apply below_refl|]. cbn [clone_pairs].
  apply below_bind; [now apply clone_entry_below|]. intros w2. apply IH.
Qed.
Lemma clone_fields_below cl cl' src sch fs order : cl_below cl cl' -> forall w r, below (clone_fields cl src sch fs order w r) (clone_fields cl' src sch fs order w r).
Proof.
  intros H. induction order as [|i order IH]; intros w r; [apply below_refl|]. cbn [clone_fields].
  apply below_bind; [destruct (fst _); try apply below_refl; apply H|]. intros [w2 x]. destruct (get w2 r) as [[]|]; try apply below_refl. apply IH.
Qed.
Lemma clone_below_step n m src : m = S n -> cl_below (clone n src) (clone m src) -> cl_below (clone (S n) src) (clone (S m) src).
Proof.
  intros Em H w o. cbn [clone]. destruct (get src o) as [[t v|v|p len fl|v nx tl len h|d len tl fl|t fs|t mem]|]; try apply below_refl.
  - destruct (add (Arr 0 0 0 0 false) w) as [w1 r]. destruct (len =? 0)%N; [apply below_refl|].
    apply below_bind; [|intros; apply below_refl]. subst m. now apply clone_array_below.
  - destruct (add (Dict 0 0 0 0) w) as [w1 r]. destruct (len =? 0)%N; [apply below_refl|].
    apply below_bind; [|intros; apply below_refl]. destruct (N.testbit fl 0).
    + apply below_bind; [apply below_refl|]. intros ps. now apply clone_pairs_below.
    + subst m. now apply clone_elems_below.
  - destruct (schema t) as [[sch order]|]; [|apply below_refl]. destruct (add (Rec t (raw_copy sch fs)) w) as [w1 r].
    apply below_bind; [|intros; apply below_refl]. now apply clone_fields_below.
Qed.
Lemma clone_below n src : cl_below (clone n src) (clone (S n) src).
Proof. induction n as [|n IH]; [intros w o; now left|]. now apply clone_below_step. Qed.
Lemma clone_more n m src w o x : n <= m -> clone n src w o = Ok x -> clone m src w o = Ok x.
Proof.
  intros L H. induction L as [|m L IH]; [exact H|]. destruct (clone_below m src w o) as [E|E]; rewrite IH in E; [discriminate|now symmetry].
Qed.

(** ** Reading what was written *)
Definition reads {A} (p : bytes -> res (A * bytes)) (c : bytes) (x : A) : Prop := forall r, p (c ++ r) = Ok (x, r).
Lemma reads_ret {A} (x : A) : reads (fun f => Ok (x, f)) [] x.
Proof. intros r. reflexivity. Qed.
Lemma reads_bind {A C} (p : bytes -> res (A * bytes)) (q : A -> bytes -> res (C * bytes)) c d x y :
  reads p c x -> reads (q x) d y -> reads (fun f => do (x, f) <- p f; q x f) (c ++ d) y.
Proof. intros H K r. rewrite <- app_assoc, H. cbn [bind]. apply K. Qed.
Lemma reads_fread n c : N.of_nat (length c) = n -> reads (fread n) c c.
Proof.
  intros <- r. unfold fread. rewrite app_length. destruct (N.ltb_spec (N.of_nat (length c + length r)) (N.of_nat (length c))); [lia|].
  rewrite Nat2N.id, firstn_app, skipn_app, Nat.sub_diag, firstn_all, skipn_all. cbn [firstn skipn app]. now rewrite app_nil_r.
Qed.
Lemma le_length n v : length (le n v) = n.
Proof. revert v. induction n as [|n IH]; intros v; [reflexivity|]. cbn [M_Deps.le length]. now rewrite IH. Qed.
Lemma unle_le n v : (v < 256 ^ N.of_nat n)%N -> unle (le n v) = v.
Proof.
  revert v. induction n as [|n IH]; intros v H.
  - cbn in *. lia.
  - cbn [M_Deps.le M_Deps.unle]. rewrite Nat2N.inj_succ, N.pow_succ_r' in H. rewrite IH.
    + rewrite N_ascii_embedding by (apply N.mod_lt; lia). pose proof (N.div_mod v 256 ltac:(lia)). lia.
    + apply N.div_lt_upper_bound; lia.
Qed.
Lemma reads_uint n v : (v < 256 ^ N.of_nat n)%N -> reads (load_uint (N.of_nat n)) (le n v) v.
Proof.
  intros H. unfold load_uint. rewrite <- (app_nil_r (le n v)). refine (reads_bind (fread (N.of_nat n)) (fun b f => Ok (unle b, f)) _ _ _ _ _ _).
  - apply reads_fread. now rewrite le_length.
  - rewrite unle_le by exact H. apply reads_ret.
Qed.
Lemma reads_u4 v : (v < 2 ^ 32)%N -> reads (load_uint 4) (le 4 v) v.
Proof. exact (reads_uint 4 v). Qed.
Lemma reads_u8 v : (v < 2 ^ 64)%N -> reads (load_uint 8) (le 8 v) v.
Proof. exact (reads_uint 8 v). Qed.
Lemma reads_u1 v : (v < 256)%N -> reads (load_uint 1) (le 1 v) v.
Proof. exact (reads_uint 1 v). Qed.
Lemma reads_u3 v : (v < 16777216)%N -> reads (load_uint 3) (le 3 v) v.
Proof. exact (reads_uint 3 v). Qed.
Lemma reads_items {A} (item : bytes -> res (A * bytes)) (w : A -> bytes) l : Forall (fun x => reads item (w x) x) l ->
  reads (load_items item (length l)) (flat_map w l) l.
Proof.
  induction 1 as [|x l H _ IH]; [apply reads_ret|]. cbn [length load_items flat_map].
  apply (reads_bind item (fun x f => do (l, f) <- load_items item (length l) f; Ok (x :: l, f)) _ _ x); [exact H|].
  rewrite <- (app_nil_r (flat_map w l)). apply (reads_bind (load_items item (length l)) (fun l f => Ok (x :: l, f)) _ _ l); [exact IH|apply reads_ret].
Qed.
Lemma reads_bucket {A} (item : bytes -> res (A * bytes)) (w : A -> bytes) size l : (size < 2 ^ 32)%N -> Forall (fun x => reads item (w x) x) l -> (N.of_nat (length l) <= size)%N ->
  reads (load_bucket item size) (le 4 (N.of_nat (length l)) ++ flat_map w l) l.
Proof.
  intros Z H L. unfold load_bucket. apply (reads_bind (load_uint 4) (fun n f => if (size <? n)%N then Fail else load_items item (N.to_nat n) f) _ _ (N.of_nat (length l))).
  - apply reads_u4. lia.
  - destruct (N.ltb_spec size (N.of_nat (length l))); [lia|]. rewrite Nat2N.id. now apply reads_items.
Qed.
Lemma reads_bucket_arr {A} (item : bytes -> res (A * bytes)) (w : A -> bytes) size bs : (size < 2 ^ 32)%N -> (N.of_nat (length bs) < 2 ^ 32)%N ->
  Forall (fun l => Forall (fun x => reads item (w x) x) l /\ (N.of_nat (length l) <= size)%N) bs ->
  reads (load_bucket_arr item size) (dump_bucket_arr w bs) bs.
Proof.
  intros Z L H. unfold load_bucket_arr, dump_bucket_arr. apply (reads_bind (load_uint 4) (fun n f => load_items (load_bucket item size) (N.to_nat n) f) _ _ (N.of_nat (length bs))).
  - now apply reads_u4.
  - rewrite Nat2N.id. apply reads_items. eapply Forall_impl; [|exact H]. intros l [H1 H2]. now apply reads_bucket.
Qed.
Lemma reads_char c : reads load_char [c] c.
Proof. exact (reads_bind (fread 1) (fun b f => Ok (hd NUL b, f)) [c] [] [c] c (reads_fread 1 [c] eq_refl) (reads_ret c)). Qed.
Ltac rd v := match goal with |- reads (fun f => bind (?p f) _) (?c ++ ?d) _ => refine (reads_bind p _ c d v _ _ _) end.
Lemma reads_elem e : elem_small e -> reads load_elem (elem_bytes e) e.
Proof.
  destruct e as [[n k] v]. intros (H1 & H2 & H3). unfold load_elem, elem_bytes. rd n; [now apply reads_u4|]. rd k; [now apply reads_u4|].
  rewrite <- (app_nil_r (le 4 v)). rd v; [now apply reads_u4|]. apply reads_ret.
Qed.
Lemma reads_fields sch fs : fields_small sch fs -> reads (load_fields sch) (fields_bytes sch fs) fs.
Proof.
  unfold fields_small, fields_bytes. induction 1 as [|[k n] v sch fs H _ IH]; [apply reads_ret|]. cbn [load_fields combine flat_map].
  rd v; [now apply reads_uint|]. rewrite <- (app_nil_r (flat_map _ _)). rd fs; [exact IH|]. apply reads_ret.
Qed.
Lemma schema_type t x : schema t = Some x -> (10 < t < 34)%N.
Proof.
  intros H. assert (K : (t < 64)%N). { destruct (N.lt_ge_cases t 64) as [L|L]; [exact L|]. exfalso. destruct t as [|p]; [lia|].
    do 5 (destruct p as [p|p|]; try discriminate; try lia). }
  destruct t as [|p]; [discriminate|]. do 5 (destruct p as [p|p|]; try discriminate; try (split; reflexivity)).
Qed.
Lemma reads_str (w : wk) p len fl big pre rest : sane w -> small w (Str p len fl) -> big = pre ++ big_strings (Str p len fl :: rest) ->
  let s := match p with InBucket b o => ((b * CHRS_BUCKET) mod 2 ^ 32 + o)%N | OnHeap _ => N.of_nat (length pre) end in
  (N.of_nat (length big) < 2 ^ 32)%N -> (s < 2 ^ 64)%N /\ load_str (chrs w) big s len fl = Ok (Str p len fl).
Proof.
  intros S0 Sm Eb s Lb. destruct p as [b off|l]; cbn [small] in Sm.
  - destruct Sm as ((-> & L1 & L2) & l & E & L3). pose proof (sane_bound _ S0 _ _ E) as L4. unfold CHRS_BUCKET in *.
    assert (Es : s = (b * 4096 + off)%N). { unfold s. rewrite N.mod_small by lia. reflexivity. }
    split; [rewrite Es; lia|]. unfold load_str. change (N.testbit 0 0) with false. cbv iota zeta. rewrite Es. unfold CHRS_BUCKET.
    assert (O : (off < 4096)%N) by lia.
    assert (E1 : ((b * 4096 + off) mod 4096 = off)%N) by (rewrite N.add_comm, N.mod_add, N.mod_small; lia).
    assert (E2 : ((b * 4096 + off) / 4096 = b)%N) by (rewrite N.div_add_l, N.div_small; lia).
    rewrite E1, E2. rewrite (N.mod_small b) by lia. pose proof (nth_error_some _ _ _ E) as Lc.
    destruct (N.ltb_spec (N.of_nat (length (chrs w))) b); [lia|]. rewrite E. cbn [or_abort bind].
    destruct (N.ltb_spec (N.of_nat (length l)) off); [lia|]. rewrite (N.mod_small (b * 4096 + off)) by lia. unfold bget. rewrite E2, E, E1.
    destruct (nth_error l (N.to_nat off)) eqn:Q; [|apply nth_error_None in Q; lia]. cbn [or_abort bind]. rewrite N.mod_small by lia. reflexivity.
  - destruct Sm as ((-> & L1) & str & -> & ->). subst s. split; [subst big; rewrite app_length in Lb; lia|]. unfold load_str. change (N.testbit 1 0) with true. cbv iota.
    assert (Eb2 : big_strings (Str (OnHeap (str ++ [NUL])) (N.of_nat (length str)) 1 :: rest) = str ++ [NUL] ++ big_strings rest).
    { cbn [big_strings]. change (N.testbit 1 0) with true. cbv iota. rewrite firstn_all2 by (rewrite app_length; cbn [length]; lia). now rewrite <- app_assoc. }
    rewrite Eb2 in Eb. assert (Lg : length big = length pre + length str + 1 + length (big_strings rest)) by (subst big; rewrite !app_length; cbn [length]; lia).
    destruct (N.leb_spec (N.of_nat (length big)) (N.of_nat (length pre))); [lia|]. destruct (N.ltb_spec (N.of_nat (length big)) (N.of_nat (length pre) + N.of_nat (length str))); [lia|].
    rewrite !Nat2N.id. rewrite Eb, skipn_app, skipn_all, Nat.sub_diag. cbn [skipn app]. rewrite firstn_app, firstn_all, Nat.sub_diag. cbn [firstn]. rewrite app_nil_r.
    rewrite N.mod_small by lia. reflexivity.
Qed.
Lemma reads_obj (w : wk) c big pre rest : sane w -> small w c -> big = pre ++ big_strings (c :: rest) -> (N.of_nat (length big) < 2 ^ 32)%N ->
  reads (load_obj (chrs w) big) (fst (dump_obj (N.of_nat (length pre)) c)) c /\
  exists x, big = (pre ++ x) ++ big_strings rest /\ snd (dump_obj (N.of_nat (length pre)) c) = N.of_nat (length (pre ++ x)).
Proof.
  intros S0 Sm Eb Lb.
  assert (Nil : big_strings (c :: rest) = big_strings rest -> big = (pre ++ []) ++ big_strings rest /\ N.of_nat (length pre) = N.of_nat (length (pre ++ []))).
  { intros E. rewrite app_nil_r, <- E. split; [exact Eb|reflexivity]. }
  destruct c as [t v|v|p len fl|v n t l h|d l t fl|t fs|t m].
  - split; [|exists []; now apply Nil]. destruct Sm as [H1 H2]. cbn [dump_obj fst]. unfold load_obj. rd t; [apply reads_u1; lia|].
    destruct (N.ltb_spec t 7); [|lia]. rewrite <- (app_nil_r (le 4 v)). rd v; [now apply reads_u4|]. apply reads_ret.
  - split; [|exists []; now apply Nil]. cbn [small] in Sm. cbn [dump_obj fst]. unfold load_obj. rd 7%N; [apply reads_u1; lia|].
    change (7 <? 7)%N with false. change (34 <=? 7)%N with false. change (7 =? 7)%N with true. cbv iota.
    rewrite <- (app_nil_r (le 8 v)). rd v; [now apply reads_u8|]. apply reads_ret.
  - pose proof (reads_str w p len fl big pre rest S0 Sm Eb) as Rs. cbv zeta in Rs. specialize (Rs Lb). cbn [dump_obj]. split.
    + set (s := match p with InBucket b o => ((b * CHRS_BUCKET) mod 2 ^ 32 + o)%N | OnHeap _ => N.of_nat (length pre) end) in Rs. destruct Rs as [Ls Rs].
      replace (fst (let '(s0, off') := match p with InBucket b o => (((b * CHRS_BUCKET) mod 2 ^ 32 + o)%N, N.of_nat (length pre)) | OnHeap _ => (N.of_nat (length pre), (N.of_nat (length pre) + len + 1)%N) end in
        (le 1 8 ++ le 8 s0 ++ le 8 len ++ le 4 fl ++ le 4 0, off'))) with (le 1 8 ++ le 8 s ++ le 8 len ++ le 4 fl ++ le 4 0) by (unfold s; now destruct p).
      assert (Ll : (len < 2 ^ 32)%N /\ (fl < 2 ^ 32)%N). { destruct p; cbn [small] in Sm; destruct Sm as [Q _]; destruct Q as (-> & Q); split; lia. }
      unfold load_obj. rd 8%N; [apply reads_u1; lia|]. change (8 <? 7)%N with false. change (34 <=? 8)%N with false. change (8 =? 7)%N with false. change (8 =? 8)%N with true. cbv iota.
      rd s; [now apply reads_u8|]. rd len; [apply reads_u8; lia|]. rd fl; [now apply reads_u4|]. rewrite <- (app_nil_r (le 4 0)). rd 0%N; [apply reads_u4; lia|].
      rewrite Rs. cbn [bind]. apply reads_ret.
    + destruct p as [b off|l]; [exists []; apply Nil; reflexivity|]. cbn [small] in Sm. destruct Sm as ((-> & L1) & str & -> & ->). exists (str ++ [NUL]).
      cbn [snd]. split; [|rewrite !app_length; cbn [length]; lia]. rewrite Eb, <- app_assoc. f_equal. cbn [big_strings]. change (N.testbit 1 0) with true. cbv iota. rewrite firstn_all2 by (rewrite app_length; cbn [length]; lia). reflexivity.
  - split; [|exists []; now apply Nil]. destruct Sm as (H1 & H2 & H3 & H4). cbn [dump_obj fst]. unfold load_obj. rd 9%N; [apply reads_u1; lia|].
    change (9 <? 7)%N with false. change (34 <=? 9)%N with false. change (9 =? 7)%N with false. change (9 =? 8)%N with false. change (9 =? 9)%N with true. cbv iota.
    rd v; [now apply reads_u4|]. rd n; [now apply reads_u4|]. rd t; [now apply reads_u4|]. rd l; [now apply reads_u4|].
    rd (bool_n h); [apply reads_u1; destruct h; cbn; lia|]. rewrite <- (app_nil_r (le 3 0)). rd 0%N; [apply reads_u3; lia|]. destruct h; apply reads_ret.
  - split; [|exists []; now apply Nil]. destruct Sm as (H1 & H2 & H3 & H4). cbn [dump_obj fst]. unfold load_obj. rd 10%N; [apply reads_u1; lia|].
    change (10 <? 7)%N with false. change (34 <=? 10)%N with false. change (10 =? 7)%N with false. change (10 =? 8)%N with false. change (10 =? 9)%N with false. change (10 =? 10)%N with true. cbv iota.
    rd d; [now apply reads_u4|]. rd l; [now apply reads_u4|]. rd t; [now apply reads_u4|]. rewrite <- (app_nil_r (le 4 fl)). rd fl; [now apply reads_u4|]. apply reads_ret.
  - split; [|exists []; now apply Nil]. destruct Sm as (sch & ord & Sc & Fs). cbn [dump_obj fst]. rewrite Sc. pose proof (schema_type _ _ Sc). unfold load_obj. rd t; [apply reads_u1; lia|].
    destruct (N.ltb_spec t 7); [lia|]. destruct (N.leb_spec 34 t); [lia|]. destruct (N.eqb_spec t 7); [lia|]. destruct (N.eqb_spec t 8); [lia|]. destruct (N.eqb_spec t 9); [lia|]. destruct (N.eqb_spec t 10); [lia|].
    rewrite Sc. rewrite <- (app_nil_r (fields_bytes sch fs)). rd fs; [now apply reads_fields|]. apply reads_ret.
  - destruct Sm.
Qed.
Lemma reads_cells (w : wk) big cs : sane w -> (N.of_nat (length big) < 2 ^ 32)%N -> forall pre, Forall (small w) cs -> big = pre ++ big_strings cs ->
  reads (load_items (load_obj (chrs w) big) (length cs)) (dump_cells (N.of_nat (length pre)) cs) cs.
Proof.
  intros S0 Lb. induction cs as [|c cs IH]; intros pre F Eb; [apply reads_ret|]. inversion F; subst.
  destruct (reads_obj w c _ pre cs S0 H1 eq_refl Lb) as (R & x & Ex & Eo). cbn [length load_items dump_cells].
  destruct (dump_obj (N.of_nat (length pre)) c) as [b off]. cbn [fst snd] in *. subst off.
  rd c; [exact R|]. rewrite <- (app_nil_r (dump_cells _ _)). rd cs; [|apply reads_ret]. now apply IH.
Qed.
Definition dumpw (w : wk) (o : N) : bytes :=
  serial_magic ++ le 4 serial_version ++ le 4 o ++ dump_bucket_arr (fun c => [c]) (chrs w) ++ dump_big_strings (objs w)
  ++ dump_objs (objs w) ++ dump_bucket_arr elem_bytes (elems w).
Lemma reads_header : reads load_header (serial_magic ++ le 4 serial_version) tt.
Proof.
  unfold load_header. rd serial_magic; [now apply reads_fread|]. replace (beqb serial_magic serial_magic) with true by reflexivity. cbn [negb].
  rewrite <- (app_nil_r (le 4 serial_version)). rd serial_version; [apply reads_u4; reflexivity|]. rewrite N.eqb_refl. apply reads_ret.
Qed.
Record writable (w : wk) (o : N) : Prop := {
  wr_sane : sane w; wr_o : (o < 2 ^ 32)%N;
  wr_chrs : (N.of_nat (length (chrs w)) < 2 ^ 32)%N;
  wr_objs : exists cs, objs w = Simple 0 0 :: cs /\ Forall (small w) cs /\ (N.of_nat (length cs) < 2 ^ 32)%N;
  wr_big : (heap w < 2 ^ 32)%N;
  wr_elems : (N.of_nat (length (elems w)) < 2 ^ 32)%N /\ Forall (fun b => (N.of_nat (length b) <= ELEMS_BUCKET)%N /\ Forall elem_small b) (elems w)
}.
Lemma load_wk_ok w o : writable w o -> reads load_wk (dumpw w o) (Wk (chrs w) (objs w) (elems w) [] [] None, o).
Proof.
  intros [S0 Lo Lc (cs & Eo & Fs & Ln) Lb [Le Fe]]. unfold load_wk, dumpw. rewrite app_assoc. rd tt; [exact reads_header|]. rd o; [now apply reads_u4|].
  rd (chrs w).
  { apply reads_bucket_arr; [reflexivity|exact Lc|]. destruct (sane_chrs _ S0) as [_ F]. eapply Forall_impl; [|exact F]. cbv beta. intros l L. split; [|unfold CHRS_BUCKET in *; lia].
    apply Forall_forall. intros c _. apply reads_char. }
  rewrite Eo. unfold heap in Lb. rewrite Eo in Lb. change (big_strings (Simple 0 0 :: cs)) with (big_strings cs) in Lb. rd (big_strings cs).
  { unfold load_big_strings, dump_big_strings. cbv zeta. change (big_strings (Simple 0 0 :: cs)) with (big_strings cs). rd (N.of_nat (length (big_strings cs))); [apply reads_u8; lia|].
    destruct (N.ltb_spec (2 ^ 32 - 1) (N.of_nat (length (big_strings cs)))); [lia|]. now apply reads_fread. }
  rd cs.
  { unfold load_objs, dump_objs. cbn [length skipn]. replace (S (length cs) - 1) with (length cs) by lia. rd (N.of_nat (length cs)); [now apply reads_u4|]. rewrite Nat2N.id.
    apply (reads_cells w (big_strings cs) cs S0 Lb []); [exact Fs|reflexivity]. }
  rewrite <- (app_nil_r (dump_bucket_arr elem_bytes (elems w))). rd (elems w); [|apply reads_ret].
  apply reads_bucket_arr; [reflexivity|exact Le|]. eapply Forall_impl; [|exact Fe]. cbv beta. intros b [H1 H2]. split; [|exact H1]. eapply Forall_impl; [|exact H2]. intros e. apply reads_elem.
Qed.

(** ** Round trip *)
Lemma sane_bare : sane bare.
Proof.
  constructor.
  - reflexivity.
  - split; [discriminate|]. constructor; [apply Nat.le_0_l|constructor].
  - constructor; [exact I|constructor].
  - cbn [bare elems full_but_last length]. unfold ELEMS_BUCKET. lia.
  - intros s o [].
Qed.
Lemma full_buckets bs : full_but_last bs -> (N.of_nat (length bs) <= N.of_nat (length (concat bs)))%N /\ Forall (fun b => (N.of_nat (length b) <= ELEMS_BUCKET)%N) bs.
Proof.
  induction bs as [|b bs IH]; intros F; [destruct F|]. destruct bs as [|c bs].
  - destruct F as [F1 F2]. cbn [concat length]. rewrite app_nil_r. split; [lia|]. constructor; [unfold ELEMS_BUCKET in *; lia|constructor].
  - destruct F as [F1 F2]. destruct (IH F2) as [I1 I2]. change (concat (b :: c :: bs)) with (b ++ concat (c :: bs)). rewrite app_length. change (length (b :: c :: bs)) with (S (length (c :: bs))).
    unfold ELEMS_BUCKET in *. split; [lia|]. constructor; [lia|exact I2].
Qed.
Lemma writable_ok v w o : post bare w o v -> (room v + 1 < 2 ^ 32)%N -> writable w o.
Proof.
  intros [G Dn] R. pose proof (g_n _ _ _ G) as Nn. pose proof (g_m _ _ _ G) as Nm. pose proof (g_cap _ _ _ G) as Nc. pose proof (g_heap _ _ _ G) as Nh.
  change (nobj bare) with 1%N in *. change (nelem bare) with 1%N in *. change (cap bare) with 0%N in *. change (heap bare) with 0%N in *.
  assert (Rm : roomy (room v) bare). { unfold roomy. change (nobj bare) with 1%N. change (nelem bare) with 1%N. change (cap bare) with 0%N. lia. }
  destruct (g_new _ _ _ G Rm) as [No Ne]. pose proof (g_sane _ _ _ G) as S0. pose proof (den_in_lt _ _ _ _ _ Dn) as Lo.
  destruct (full_buckets _ (sane_elems _ S0)) as [L1 L2]. constructor; [exact S0|lia| | |lia|split].
  - unfold cap, CHRS_BUCKET in Nc. lia.
  - pose proof (sane_null _ S0) as E0. unfold get in E0. destruct (objs w) as [|c cs] eqn:Eo; [discriminate|]. injection E0 as ->. exists cs. split; [reflexivity|]. split.
    + apply Forall_forall. intros c Hc. apply In_nth_error in Hc. destruct Hc as (i & Hi). apply (No (N.of_nat (S i))); [change (nobj bare) with 1%N; lia|].
      unfold get. rewrite Nat2N.id, Eo. exact Hi.
    + unfold nobj in Nn. rewrite Eo in Nn. cbn [length] in Nn. lia.
  - unfold nelem, blen in Nm. lia.
  - assert (Fe : forall e x, elemat w e = Some x -> elem_small x).
    { intros e x H. destruct (N.lt_ge_cases e 1) as [L|L]; [|now apply (Ne e)]. assert (e = 0%N) by lia. subst e.
      rewrite (ag_e _ _ _ _ (g_agree _ _ _ G) 0%N (0, 0, 0)%N eq_refl (fun q => q)) in H. injection H as <-. cbn. lia. }
    assert (Fc : Forall elem_small (concat (elems w))).
    { apply Forall_forall. intros x Hx. apply In_nth_error in Hx. destruct Hx as (i & Hi). apply (Fe (N.of_nat i)). rewrite elemat_flat by exact S0. now rewrite Nat2N.id. }
    clear - L2 Fc. revert Fc. induction L2 as [|b bs H _ IH]; intros Fc; [constructor|]. cbn [concat] in Fc. apply Forall_app in Fc. destruct Fc as [F1 F2]. constructor; [now split|]. now apply IH.
Qed.
Fixpoint fits_none a v {struct v} : fits a v -> fits None v.
Proof.
  destruct v; cbn [fits]; try tauto.
  - induction l as [|x l IH]; [tauto|]. intros [H K]. split; [exact (fits_none a x H)|exact (IH K)].
  - intros [Nd K]. split; [exact Nd|]. clear Nd. revert K. induction l as [|[k x] l IH]; [tauto|]. intros (H & K1 & K2). refine (conj H (conj (fits_none a x K1) (IH K2))).
  - apply fits_none.
  - apply fits_none.
  - intros (H1 & H2 & H3). exact (conj (fits_none _ _ H1) (conj (fits_none _ _ H2) H3)).
  - intros (H0 & (H1 & H2 & H3 & H4 & H5 & H6) & H7).
    exact (conj H0 (conj (conj (fits_none _ _ H1) (conj (fits_none _ _ H2) (conj (fits_none _ _ H3) (conj (fits_none _ _ H4) (conj (fits_none _ _ H5) (fits_none _ _ H6)))))) H7)).
  - intros (H0 & (H1 & H2) & H7). exact (conj H0 (conj (conj (fits_none _ _ H1) (fits_none _ _ H2)) H7)).
  - intros ((H1 & H2 & H3 & H4 & H5 & H6 & H8) & H7).
    exact (conj (conj (fits_none _ _ H1) (conj (fits_none _ _ H2) (conj (fits_none _ _ H3) (conj (fits_none _ _ H4) (conj (fits_none _ _ H5) (conj (fits_none _ _ H6) (fits_none _ _ H8))))))) H7).
Qed.
Lemma denotes_in D E w w' o v : den_in D E w o v -> objs w' = objs w -> chrs w' = chrs w -> elems w' = elems w -> denotes w' o v.
Proof.
  intros H E1 E2 E3. refine (den_mono _ _ _ _ _ _ _ _ _ _ _ _ _ _ H).
  - intros i c. unfold cin, get. rewrite E1. destruct (nth_error _ _); [|discriminate]. destruct (_ || _); [auto|discriminate].
  - intros e x. unfold ein, elemat. rewrite E3. destruct (E e); [auto|discriminate].
  - intros i s. unfold strat, str, get, chars. rewrite E1, E2. auto.
  - discriminate.
Qed.
Lemma post_denotes w w' o v : post w w' o v -> denotes w' o v.
Proof. intros [_ H]. eapply denotes_in; [exact H|reflexivity..]. Qed.
Lemma dump_ok src o v : denotes src o v -> fits (autof src) v ->
  exists n0 w' o', post bare w' o' v /\ (forall n, n0 <= n -> dump n src o = Ok (dumpw w' o')).
Proof.
  intros H F. destruct (clone_ok src o v H F) as (n0 & K). destruct (K n0 (Nat.le_refl _) bare sane_bare) as (w' & o' & E & P).
  exists n0, w', o'. split; [exact P|]. intros n L. unfold dump. rewrite (clone_more _ _ _ _ _ _ L E). reflexivity.
Qed.
Lemma round_trip src o v : denotes src o v -> fits (autof src) v -> (room v + 1 < 2 ^ 32)%N ->
  exists n0 file, (forall n, n0 <= n -> dump n src o = Ok file) /\
    forall w, sane w -> exists n1 w' o', (forall n, n1 <= n -> load n w file = Ok (w', o')) /\ post w w' o' v.
Proof.
  intros H F R. destruct (dump_ok src o v H F) as (n0 & w1 & o1 & P & K). exists n0, (dumpw w1 o1). split; [exact K|].
  intros w S0. pose proof (load_wk_ok _ _ (writable_ok _ _ _ P R)) as Rd. set (w2 := Wk (chrs w1) (objs w1) (elems w1) [] [] None) in *.
  assert (D2 : denotes w2 o1 v) by (eapply denotes_in; [exact (proj2 P)|reflexivity..]).
  destruct (clone_ok w2 o1 v D2 (fits_none _ _ F)) as (n1 & C). destruct (C n1 (Nat.le_refl _) w S0) as (w' & o' & E & P').
  exists n1, w', o'. split; [|exact P']. intros n L. unfold load. specialize (Rd []). rewrite app_nil_r in Rd. rewrite Rd. cbn [bind]. exact (clone_more _ _ _ _ _ _ L E).
Qed.

(** ** Prefixes *)
Definition stream {A} (p : bytes -> res (A * bytes)) : Prop :=
  forall f x r, p f = Ok (x, r) -> exists c, f = c ++ r /\ reads p c x /\ forall c1 c2, c = c1 ++ c2 -> c2 <> [] -> p c1 = Fail.
Lemma stream_ret {A} (x : A) : stream (fun f => Ok (x, f)).
Proof.
  intros f y r H. apply Ok_inj in H. injection H as <- <-. exists []. split; [reflexivity|]. split; [apply reads_ret|].
  intros c1 c2 E N0. symmetry in E. apply app_eq_nil in E as [_ E]. contradiction.
Qed.
Lemma stream_fail {A} : stream (fun _ => Fail : res (A * bytes)).
Proof. intros f x r H. discriminate. Qed.
Lemma stream_abort {A} : stream (fun _ => Abort : res (A * bytes)).
Proof. intros f x r H. discriminate. Qed.
Lemma stream_bind {A C} (p : bytes -> res (A * bytes)) (q : A -> bytes -> res (C * bytes)) : stream p -> (forall x, stream (q x)) ->
  stream (fun f => do (x, f) <- p f; q x f).
Proof.
  intros Hp Hq f y r2 H. destruct (p f) as [[x r1]| | | |] eqn:E; try discriminate. cbn [bind] in H.
  destruct (Hp _ _ _ E) as (c & -> & Rc & Fc). destruct (Hq x _ _ _ H) as (d & -> & Rd & Fd). exists (c ++ d). split; [apply app_assoc|]. split; [now apply (reads_bind p q c d x)|].
  intros c1 c2 Ec N0. destruct (Nat.lt_ge_cases (length c1) (length c)) as [L|L].
  - assert (Ex : exists z, c = c1 ++ z /\ z <> []).
    { exists (skipn (length c1) c). assert (E1 : firstn (length c1) (c ++ d) = c1) by (rewrite Ec, firstn_app, Nat.sub_diag, firstn_all; cbn; now rewrite app_nil_r).
      rewrite firstn_app in E1. replace (length c1 - length c) with 0 in E1 by lia. cbn [firstn] in E1. rewrite app_nil_r in E1. split; [now rewrite <- E1 at 1; rewrite firstn_skipn|].
      intros Z. apply (f_equal (@length ascii)) in Z. rewrite skipn_length in Z. cbn in Z. lia. }
    destruct Ex as (z & Ez & Nz). rewrite (Fc c1 z Ez Nz). reflexivity.
  - assert (Ex : exists z, c1 = c ++ z /\ d = z ++ c2).
    { exists (skipn (length c) c1). assert (E1 : firstn (length c) (c1 ++ c2) = c) by (rewrite <- Ec, firstn_app, Nat.sub_diag, firstn_all; cbn; now rewrite app_nil_r).
      rewrite firstn_app in E1. replace (length c - length c1) with 0 in E1 by lia. cbn [firstn] in E1. rewrite app_nil_r in E1.
      assert (E2 : c1 = c ++ skipn (length c) c1) by (rewrite <- E1 at 1; symmetry; apply firstn_skipn). split; [exact E2|]. rewrite E2, <- app_assoc in Ec. now apply app_inv_head in Ec. }
    destruct Ex as (z & -> & Ed). rewrite Rc. cbn [bind]. exact (Fd z c2 Ed N0).
Qed.
Lemma stream_fread n : stream (fread n).
Proof.
  intros f x r H. unfold fread in H. destruct (N.ltb_spec (N.of_nat (length f)) n) as [L|L]; [discriminate|]. apply Ok_inj in H. injection H as <- <-.
  exists (firstn (N.to_nat n) f). split; [symmetry; apply firstn_skipn|]. assert (Ln : length (firstn (N.to_nat n) f) = N.to_nat n) by (rewrite firstn_length; lia). split.
  - apply reads_fread. lia.
  - intros c1 c2 E N0. unfold fread. rewrite E, app_length in Ln. destruct c2 as [|z c2]; [contradiction|]. cbn [length] in Ln. destruct (N.ltb_spec (N.of_nat (length c1)) n); [reflexivity|lia].
Qed.
Lemma stream_if {A} (b : bool) (p q : bytes -> res (A * bytes)) : stream p -> stream q -> stream (fun f => if b then p f else q f).
Proof. now destruct b. Qed.
Lemma stream_res {A} (c : res A) : stream (fun f => do c <- c; Ok (c, f)).
Proof. destruct c; cbn [bind]; try (intros f x r H; discriminate). apply stream_ret. Qed.
Lemma stream_uint n : stream (load_uint n).
Proof. unfold load_uint. apply (stream_bind (fread n) (fun b f => Ok (unle b, f))); [apply stream_fread|]. intros. apply stream_ret. Qed.
Lemma stream_items {A} (item : bytes -> res (A * bytes)) n : stream item -> stream (load_items item n).
Proof.
  intros H. induction n as [|n IH]; [apply stream_ret|]. cbn [load_items]. apply (stream_bind item (fun x f => do (l, f) <- load_items item n f; Ok (x :: l, f))); [exact H|].
  intros x. apply (stream_bind (load_items item n) (fun l f => Ok (x :: l, f))); [exact IH|]. intros. apply stream_ret.
Qed.
Ltac sm := match goal with |- stream (fun f => bind (?p f) _) => refine (stream_bind p _ _ _); [|intros ?] end.
Lemma stream_header : stream load_header.
Proof.
  unfold load_header. sm; [apply stream_fread|]. apply stream_if; [apply stream_fail|]. sm; [apply stream_uint|]. apply stream_if; [apply stream_fail|apply stream_ret].
Qed.
Lemma stream_bucket_arr {A} (item : bytes -> res (A * bytes)) size : stream item -> stream (load_bucket_arr item size).
Proof.
  intros H. unfold load_bucket_arr. sm; [apply stream_uint|]. apply stream_items. unfold load_bucket. sm; [apply stream_uint|]. apply stream_if; [apply stream_fail|]. now apply stream_items.
Qed.
Lemma stream_fields sch : stream (load_fields sch).
Proof. induction sch as [|[k n] sch IH]; [apply stream_ret|]. cbn [load_fields]. sm; [apply stream_uint|]. sm; [exact IH|]. apply stream_ret. Qed.
Lemma stream_obj cb big : stream (load_obj cb big).
Proof.
  unfold load_obj. sm; [apply stream_uint|]. apply stream_if; [sm; [apply stream_uint|apply stream_ret]|]. apply stream_if; [apply stream_fail|].
  apply stream_if; [sm; [apply stream_uint|apply stream_ret]|].
  apply stream_if; [do 4 (sm; [apply stream_uint|]); apply stream_res|].
  apply stream_if; [do 6 (sm; [apply stream_uint|]); apply stream_ret|].
  apply stream_if; [do 4 (sm; [apply stream_uint|]); apply stream_ret|].
  destruct (schema x) as [[sch o]|]; [sm; [apply stream_fields|apply stream_ret]|]. destruct (opaque_size x); [|apply stream_abort]. sm; [apply stream_fread|apply stream_ret].
Qed.
Lemma stream_wk : stream load_wk.
Proof.
  unfold load_wk. sm; [exact stream_header|]. sm; [apply stream_uint|].
  sm; [apply stream_bucket_arr; unfold load_char; sm; [apply stream_fread|apply stream_ret]|].
  sm; [unfold load_big_strings; sm; [apply stream_uint|]; apply stream_if; [apply stream_fail|apply stream_fread]|].
  sm; [unfold load_objs; sm; [apply stream_uint|]; apply stream_items, stream_obj|].
  sm; [apply stream_bucket_arr; unfold load_elem; do 3 (sm; [apply stream_uint|]); apply stream_ret|]. apply stream_ret.
Qed.
Lemma fread_split n f b r : fread n f = Ok (b, r) -> f = b ++ r /\ N.of_nat (length b) = n.
Proof.
  unfold fread. destruct (N.ltb_spec (N.of_nat (length f)) n); [discriminate|]. intros H0. apply Ok_inj in H0. apply pair_equal_spec in H0 as [<- <-].
  split; [symmetry; apply firstn_skipn|]. rewrite firstn_length. lia.
Qed.

(** ** Reading always ends *)
Definition ends {A} (p : bytes -> res A) : Prop := forall f, p f <> Endless.
Lemma ends_bind {A C} (p : bytes -> res (A * bytes)) (q : A -> bytes -> res C) : ends p -> (forall x, ends (q x)) -> ends (fun f => do (x, f) <- p f; q x f).
Proof. intros H K f. specialize (H f). destruct (p f) as [[x r]| | | |]; cbn [bind]; try discriminate; [apply K|contradiction]. Qed.
Lemma ends_fread n : ends (fread n).
Proof. intros f. unfold fread. destruct (_ <? _)%N; discriminate. Qed.
Lemma ends_ret {A} (x : A) : ends (fun f => Ok (x, f)).
Proof. intros f. discriminate. Qed.
Lemma ends_fail {A} : ends (fun _ => @Fail A).
Proof. intros f. discriminate. Qed.
Lemma ends_if {A} (b : bool) (p q : bytes -> res A) : ends p -> ends q -> ends (fun f => if b then p f else q f).
Proof. now destruct b. Qed.
Lemma ends_uint n : ends (load_uint n).
Proof. apply (ends_bind (fread n) (fun b f => Ok (unle b, f))); [apply ends_fread|]. intros. apply ends_ret. Qed.
Ltac en := match goal with |- ends (fun f => bind (?p f) _) => refine (ends_bind p _ _ _); [|intros ?] end.
Lemma ends_items {A} (item : bytes -> res (A * bytes)) n : ends item -> ends (load_items item n).
Proof. intros H. induction n as [|n IH]; [apply ends_ret|]. cbn [load_items]. en; [exact H|]. en; [exact IH|]. apply ends_ret. Qed.
Lemma ends_bucket_arr {A} (item : bytes -> res (A * bytes)) size : ends item -> ends (load_bucket_arr item size).
Proof. intros H. unfold load_bucket_arr. en; [apply ends_uint|]. apply ends_items. unfold load_bucket. en; [apply ends_uint|]. apply ends_if; [apply ends_fail|]. now apply ends_items. Qed.
Lemma ends_fields sch : ends (load_fields sch).
Proof. induction sch as [|[k n] sch IH]; [apply ends_ret|]. cbn [load_fields]. en; [apply ends_uint|]. en; [exact IH|]. apply ends_ret. Qed.
Lemma ends_obj cb big : ends (load_obj cb big).
Proof.
  unfold load_obj. en; [apply ends_uint|]. apply ends_if; [en; [apply ends_uint|apply ends_ret]|]. apply ends_if; [apply ends_fail|].
  apply ends_if; [en; [apply ends_uint|apply ends_ret]|].
  apply ends_if; [do 4 (en; [apply ends_uint|])|].
  { intros f. unfold load_str. destruct (N.testbit x2 0).
    - destruct (_ <=? _)%N; [discriminate|]. destruct (_ <? _)%N; discriminate.
    - cbv zeta. destruct (_ <? _)%N; [discriminate|]. destruct (nth_error cb _) as [b|]; [|discriminate]. cbn [or_abort bind].
      destruct (_ <? _)%N; [discriminate|]. destruct (bget _ _ _); discriminate. }
  apply ends_if; [do 6 (en; [apply ends_uint|]); apply ends_ret|].
  apply ends_if; [do 4 (en; [apply ends_uint|]); apply ends_ret|].
  destruct (schema x) as [[sch o]|]; [en; [apply ends_fields|apply ends_ret]|]. destruct (opaque_size x); [|intros f; discriminate]. en; [apply ends_fread|apply ends_ret].
Qed.
Lemma ends_wk : ends load_wk.
Proof.
  unfold load_wk. en; [unfold load_header; en; [apply ends_fread|]; apply ends_if; [apply ends_fail|]; en; [apply ends_uint|]; apply ends_if; [apply ends_fail|apply ends_ret]|]. en; [apply ends_uint|].
  en; [apply ends_bucket_arr; unfold load_char; en; [apply ends_fread|apply ends_ret]|].
  en; [unfold load_big_strings; en; [apply ends_uint|]; apply ends_if; [apply ends_fail|apply ends_fread]|].
  en; [unfold load_objs; en; [apply ends_uint|]; apply ends_items, ends_obj|].
  en; [apply ends_bucket_arr; unfold load_elem; do 3 (en; [apply ends_uint|]); apply ends_ret|]. apply ends_ret.
Qed.
