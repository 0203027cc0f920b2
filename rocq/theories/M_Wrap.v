(** Model of wrap files (src/wrap.c): what they may say, and how a subproject is fetched.

    The lines of a wrap file come from the model of ini files.  What commands and the file system
    do is any function of what was done before. *)
From Verif Require Import Base M_Path M_Sha.
Local Arguments B _ : simpl never.

(** ** Parsing *)

(** a line: the section it is in, and the key and the value if it is not the header of the section *)
Definition line := (option bytes * option (bytes * bytes))%type.

(** include/wrap.h 52-57 *)
Inductive wtype := TFile | TGit | TProvide.

(** 47-51 wrap_type_section_header, 53-65 lookup_wrap_str *)
Definition section_of (s : bytes) : option wtype :=
  if beqb s (B "wrap-file") then Some TFile
  else if beqb s (B "wrap-git") then Some TGit
  else if beqb s (B "provide") then Some TProvide
  else None.

(** 26-45 wrap_field_names *)
Definition field_names : list bytes :=
  [ B "directory"; B "patch_url"; B "patch_fallback_url"; B "patch_filename"; B "patch_hash";
    B "patch_directory"; B "diff_files"; B "source_url"; B "source_fallback_url";
    B "source_filename"; B "source_hash"; B "lead_directory_missing"; B "url"; B "revision";
    B "depth"; B "push-url"; B "clone-recursive"; B "wrapdb_version" ].

(** the array wrap.fields, by name *)
Fixpoint get (k : bytes) (l : list (bytes * bytes)) : option bytes :=
  match l with [] => None | (a, v) :: l => if beqb a k then Some v else get k l end.
Definition has (k : bytes) (l : list (bytes * bytes)) : bool :=
  match get k l with Some _ => true | None => false end.

(** 67-72 struct wrap_parse_ctx *)
Record ctx := mkCtx {
  wtyp : wtype;
  fields : list (bytes * bytes);
  in_section : wtype;
  have_type : bool;
  has_provides : bool
}.
Definition ctx0 : ctx := mkCtx TFile [] TFile false false.

(** 74-122 wrap_parse_cb; [None] is an error *)
Definition parse_cb (c : ctx) (l : line) : option ctx :=
  match l with
  | (None, _) => None
  | (Some s, None) =>
      match section_of s with
      | None => None
      | Some TProvide => Some (mkCtx (wtyp c) (fields c) TProvide (have_type c) true)
      | Some t => if have_type c then None else Some (mkCtx t (fields c) t true (has_provides c))
      end
  | (Some _, Some (k, v)) =>
      match in_section c with
      | TProvide => Some c
      | _ =>
          if negb (existsb (beqb k) field_names) then None
          else if has k (fields c) then None
          else Some (mkCtx (wtyp c) (fields c ++ [(k, v)]) (in_section c) (have_type c) (has_provides c))
      end
  end.

Fixpoint parse_lines (c : ctx) (ls : list line) : option ctx :=
  match ls with
  | [] => Some c
  | l :: ls => match parse_cb c l with None => None | Some c => parse_lines c ls end
  end.

(** 349 enum req *)
Inductive req := Invalid | Required | Optional.

(** 350-386: what validate_wrap requires of the field [k] *)
Definition field_req (c : ctx) (k : bytes) : req :=
  let is (s : string) := beqb k (B s) in
  let patch := has (B "patch_url") (fields c) || has (B "patch_filename") (fields c)
               || has (B "patch_hash") (fields c) in
  if is "directory"%string || is "diff_files"%string || is "wrapdb_version"%string then Optional
  else if is "patch_directory"%string then if patch then Invalid else Optional
  else if is "patch_url"%string || is "patch_hash"%string || is "patch_fallback_url"%string
  then if patch then Optional else Invalid
  else if is "patch_filename"%string then if patch then Required else Invalid
  else match wtyp c with
       | TFile =>
           if is "source_filename"%string
           then if has (B "source_url") (fields c) then Required else Optional
           else if is "source_url"%string || is "source_hash"%string || is "source_fallback_url"%string
                   || is "lead_directory_missing"%string then Optional else Invalid
       | TGit =>
           if is "url"%string || is "revision"%string then Required
           else if is "depth"%string || is "clone-recursive"%string || is "push-url"%string then Optional else Invalid
       | TProvide => Invalid
       end.

(** 344-412 validate_wrap *)
Definition validate (c : ctx) : bool :=
  forallb (fun k => match field_req c k with
                    | Optional => true
                    | Required => has k (fields c)
                    | Invalid => negb (has k (fields c))
                    end) field_names.

(** 427-475 wrap_parse without the names *)
Definition wrap_parse (ls : list line) : option ctx :=
  match parse_lines ctx0 ls with
  | Some c => if validate c then Some c else None
  | None => None
  end.

(** ** Checksums *)

(** strtol of the C library with base 16, at most two digits: blanks, a sign, 0x, digits *)
Definition xval (c : ascii) : option Z :=
  if is_digit c then Some (Z.of_nat (cval c - 48))
  else if (97 <=? cval c) && (cval c <=? 102) then Some (Z.of_nat (cval c - 87))
  else if (65 <=? cval c) && (cval c <=? 70) then Some (Z.of_nat (cval c - 55))
  else None.
Definition isspace (c : ascii) : bool := ceqb c " "%char || ((9 <=? cval c) && (cval c <=? 13)).
Fixpoint digits (s : bytes) (v : Z) : Z :=
  match s with
  | [] => v
  | c :: s => match xval c with Some d => digits s (16 * v + d)%Z | None => v end
  end.
Fixpoint blanks (s : bytes) : bytes :=
  match s with c :: t => if isspace c then blanks t else s | [] => [] end.
Definition prefixed (s : bytes) : Z :=
  match s with
  | z :: x :: d :: t =>
      if ceqb z "0"%char && (ceqb x "x"%char || ceqb x "X"%char)
         && match xval d with Some _ => true | None => false end
      then digits (d :: t) 0 else digits s 0
  | _ => digits s 0
  end.
Definition strtol16 (s : bytes) : Z :=
  match blanks s with
  | c :: t => if ceqb c "-"%char then (- prefixed t)%Z
              else if ceqb c "+"%char then prefixed t else prefixed (c :: t)
  | [] => 0%Z
  end.

(** 236-243 the loop over the pairs of characters; the number is cut to 8 bits *)
Fixpoint same_hash (s : bytes) (hash : list N) : bool :=
  match s, hash with
  | a :: b :: s, h :: hash =>
      if (strtol16 [a; b] mod 256 =? Z.of_N h)%Z then same_hash s hash else false
  | [], [] => true
  | _, _ => false
  end.

Definition numbers (d : bytes) : list N := map N_of_ascii d.

(** 222-246 checksum *)
Definition checksum (d sha : bytes) : bool :=
  if negb (length sha =? 64) then false
  else match calc_sha_256 (length d + 3) (numbers d) with
       | Some hash => same_hash sha hash
       | None => false
       end.

(** ** Fetching *)

(** what is done to the world *)
Inductive action :=
| Mkdir (dir : bytes)
| Fetch (url : bytes)
| Extract (archive dest : bytes)
| CopyDir (src dest : bytes)
| Clone (url dest : bytes)
| Checkout (rev dir : bytes)
| Patch (file dir : bytes).

Record world := mkWorld {
  net : list action -> bytes -> option bytes;          (* what a url gives *)
  file_at : list action -> bytes -> option bytes;      (* the content of a file *)
  dir_at : list action -> bytes -> bool;
  works : list action -> action -> bool
}.

(** [Crash] is a null pointer that is followed or a failed assertion, [Beyond] that memory behind
    a string is read and taken for a part of it *)
Inductive outcome := Good | Bad | Crash | Beyond.
Definition st := (list action * outcome)%type.

Definition act (w : world) (a : action) (h : list action) : st :=
  (h ++ [a], if works w h a then Good else Bad).
Definition andthen (x : st) (k : list action -> st) : st :=
  match x with (h, Good) => k h | _ => x end.

(** 248-259 checksum_extract *)
Definition checksum_extract (w : world) (d : bytes) (sha : option bytes) (dest : bytes) (h : list action) : st :=
  match sha with
  | Some s => if checksum d s then act w (Extract d dest) h else (h, Bad)
  | None => act w (Extract d dest) h
  end.

(** 261-284 fetch_checksum_extract *)
Definition fetch (w : world) (url : bytes) (sha : option bytes) (dest : bytes) (h : list action) : st :=
  let h' := h ++ [Fetch url] in
  match net w h url with
  | None => (h', Bad)
  | Some d => checksum_extract w d sha dest h'
  end.

(** 286-342 wrap_download_or_check_packagefiles, of local files that can be read *)
Definition packagefiles (w : world) (filename url hash : option bytes) (sub dest : bytes) (download : bool)
    (h : list action) : st :=
  match filename, path_join sub (B "packagefiles") with
  | Some name, Some dir =>
      match path_push dir name with
      | None => (h, Crash)
      | Some src =>
          match file_at w h src with
          | Some d => checksum_extract w d hash dest h
          | None =>
              if dir_at w h src then act w (CopyDir src dest) h
              else match url with
                   | Some u => if negb download then (h, Bad) else fetch w u hash dest h
                   | None => (h, Bad)
                   end
          end
      end
  | _, _ => (h, Crash)
  end.

(** 506-553 the loop of wrap_apply_diff_files: [cur] is what lies between [diff_file] and [p],
    [rest] what [p] points to, up to the end of the memory *)
Fixpoint skip_blanks (s : bytes) : bytes :=
  match s with
  | c :: t => if ceqb c " "%char || ceqb c CR || ceqb c TAB then skip_blanks t else s
  | [] => []
  end.
Fixpoint diff_loop (fuel : nat) (cur rest : bytes) : list bytes * outcome :=
  match fuel with
  | 0 => ([], Beyond)
  | S fuel =>
      match rest with
      | a :: b :: t =>
          if ceqb a NUL then ([], Beyond)
          else if ceqb b ","%char || ceqb b NUL
          then let f := cur ++ [a] in
               if ceqb b NUL then ([f], Good)
               else match skip_blanks t with
                    | [] => ([f], Beyond)
                    | c :: t' => if ceqb c NUL then ([f], Good)
                                 else let '(l, o) := diff_loop fuel [c] t' in (f :: l, o)
                    end
          else diff_loop fuel (cur ++ [a]) (b :: t)
      | _ => ([], Beyond)
      end
  end.

(** the names that the value is taken for, and whether it is left; [junk] follows it in memory *)
Definition diff_names (v junk : bytes) : list bytes * outcome :=
  diff_loop (length v + length junk + 2) [] (v ++ NUL :: junk).

(** 497-560 wrap_apply_diff_files: each is applied *)
Fixpoint apply_each (w : world) (dir dest : bytes) (l : list bytes) (o : outcome) (h : list action) : st :=
  match l with
  | [] => (h, o)
  | f :: l => match path_join dir f with
              | None => (h, Crash)
              | Some p => andthen (act w (Patch p dest) h) (apply_each w dir dest l o)
              end
  end.
Definition apply_diffs (w : world) (sub dest v junk : bytes) (h : list action) : st :=
  match path_join sub (B "packagefiles") with
  | None => (h, Crash)
  | Some dir => let '(l, o) := diff_names v junk in apply_each w dir dest l o h
  end.

(** 562-594 wrap_apply_patch *)
Definition apply_patch (w : world) (c : ctx) (dest_dir sub junk : bytes) (download : bool) (h : list action) : st :=
  let f k := get (B k) (fields c) in
  let '(dest, name) := match f "patch_directory"%string with
                       | Some d => (dest_dir, Some d)
                       | None => (sub, f "patch_filename"%string)
                       end in
  andthen (match name with
           | Some _ => packagefiles w name (f "patch_url"%string) (f "patch_hash"%string) sub dest download h
           | None => (h, Good)
           end) (fun h =>
  match f "diff_files"%string with
  | Some v => apply_diffs w sub dest_dir v junk h
  | None => (h, Good)
  end).

(** 596-614 wrap_handle_git *)
Definition handle_git (w : world) (c : ctx) (dest_dir : bytes) (h : list action) : st :=
  match get (B "url") (fields c), get (B "revision") (fields c) with
  | Some u, Some r => andthen (act w (Clone u dest_dir) h) (act w (Checkout r dest_dir))
  | _, _ => (h, Crash)
  end.

(** 616-641 wrap_handle_file *)
Definition handle_file (w : world) (c : ctx) (dest_dir sub : bytes) (download : bool) (h : list action) : st :=
  let f k := get (B k) (fields c) in
  let dest := if has (B "lead_directory_missing") (fields c) then dest_dir else sub in
  andthen (if dir_at w h dest then (h, Good) else act w (Mkdir dest) h)
    (packagefiles w (f "source_filename"%string) (f "source_url"%string) (f "source_hash"%string) sub dest download).

(** 643-689 wrap_handle, of a wrap file that was parsed *)
Definition wrap_handle (w : world) (c : ctx) (dest_dir sub junk : bytes) (download : bool) : st :=
  match path_join dest_dir (B "meson.build") with
  | None => ([], Crash)
  | Some mb =>
      match file_at w [] mb with
      | Some _ => ([], Good)
      | None =>
          andthen (match wtyp c with
                   | TFile => handle_file w c dest_dir sub download []
                   | TGit => if negb download then ([], Bad) else handle_git w c dest_dir []
                   | TProvide => ([], Crash)
                   end) (apply_patch w c dest_dir sub junk download)
      end
  end.
