(** Model of src/external/samurai/tree.c: AVL trees with string keys.

    A node pointer is an inductive tree.  The array a[] of addresses of child pointers that
    samu_treeinsert keeps is the list of frames from the insertion point to the root.  The
    recorded heights are C ints (unbounded here). *)
From Verif Require Import Base.

Section Tree.
Context {V : Type}.

Inductive tree :=
| Leaf
| Node (l : tree) (k : bytes) (v : V) (h : Z) (r : tree).

(** strcmp on NUL-free strings, as a sign *)
Fixpoint strcmp (a b : bytes) : Z :=
  match a, b with
  | [], [] => 0%Z
  | [], _ => (-1)%Z
  | _, [] => 1%Z
  | x :: a', y :: b' => if cval x <? cval y then (-1)%Z else if cval y <? cval x then 1%Z else strcmp a' b'
  end.

(** tree.c 23-27 samu_height *)
Definition height (t : tree) : Z := match t with Leaf => 0 | Node _ _ _ h _ => h end%Z.

(** child[dir] and child[!dir]; dir = true is child[1] *)
Definition child (dir : bool) (l r : tree) : tree := if dir then r else l.
Definition mk (dir : bool) (same other : tree) (k : bytes) (v : V) (h : Z) : tree :=
  if dir then Node other k v h same else Node same k v h other.

(** tree.c 29-70 samu_rot on the node x with deeper side [dir]; [None]: a NULL child would be
    dereferenced.  Returns the new subtree and the change of height. *)
Definition rot (x : tree) (dir : bool) : option (tree * Z) :=
  match x with
  | Leaf => None
  | Node xl xk xv hx xr =>
      match child dir xl xr with
      | Leaf => None
      | Node yl yk yv yh yr =>
          let a := child (negb dir) xl xr in
          let z := child (negb dir) yl yr in
          let d := child dir yl yr in
          let hz := height z in
          if (height d <? hz)%Z then
            match z with
            | Leaf => None
            | Node zl zk zv zh zr =>
                let x' := mk dir (child (negb dir) zl zr) a xk xv hz in
                let y' := mk dir d (child dir zl zr) yk yv hz in
                let z' := mk dir y' x' zk zv (hz + 1)%Z in
                Some (z', (hz + 1 - hx)%Z)
            end
          else
            let x' := mk dir z a xk xv (hz + 1)%Z in
            let y' := mk dir d x' yk yv (hz + 2)%Z in
            Some (y', (hz + 2 - hx)%Z)
      end
  end.

(** tree.c 72-85 samu_balance; h0 - h1 + 1u < 3u means |h0 - h1| <= 1 *)
Definition balance (n : tree) : option (tree * Z) :=
  match n with
  | Leaf => None
  | Node l k v old r =>
      let h0 := height l in
      let h1 := height r in
      if ((-1 <=? h0 - h1) && (h0 - h1 <=? 1))%Z then
        let h := (if h0 <? h1 then h1 + 1 else h0 + 1)%Z in
        Some (Node l k v h r, (h - old)%Z)
      else rot n (h0 <? h1)%Z
  end.

(** tree.c 87-99 samu_treefind *)
Fixpoint treefind (n : tree) (key : bytes) : option V :=
  match n with
  | Leaf => None
  | Node l k v _ r =>
      let c := strcmp key k in
      if (c =? 0)%Z then Some v
      else if (0 <? c)%Z then treefind r key else treefind l key
  end.

(** a frame: which child the path takes, and the rest of that node *)
Record frame := mkFrame { f_dir : bool; f_other : tree; f_key : bytes; f_val : V; f_h : Z }.
Definition plug (f : frame) (t : tree) : tree := mk (f_dir f) t (f_other f) (f_key f) (f_val f) (f_h f).

Inductive descent :=
| Found (path : list frame) (l : tree) (k : bytes) (old : V) (h : Z) (r : tree)
| Missing (path : list frame).

(** tree.c 108-117 the descent; [path] is innermost first *)
Fixpoint descend (n : tree) (key : bytes) (path : list frame) : descent :=
  match n with
  | Leaf => Missing path
  | Node l k v h r =>
      let c := strcmp key k in
      if (c =? 0)%Z then Found path l k v h r
      else if (0 <? c)%Z then descend r key (mkFrame true l k v h :: path)
      else descend l key (mkFrame false r k v h :: path)
  end.

Fixpoint plug_all (path : list frame) (t : tree) : tree :=
  match path with [] => t | f :: p => plug_all p (plug f t) end.

(** tree.c 125-127: rebalance the ancestors until one keeps its height *)
Fixpoint rebalance (path : list frame) (t : tree) : option tree :=
  match path with
  | [] => Some t
  | f :: p =>
      match balance (plug f t) with
      | None => None
      | Some (t', delta) => if (delta =? 0)%Z then Some (plug_all p t') else rebalance p t'
      end
  end.

(** tree.c 101-129 samu_treeinsert; returns the tree, the old value, and the number of
    entries of a[] that were used *)
Definition treeinsert (root : tree) (key : bytes) (value : V) : option (tree * option V * nat) :=
  match descend root key [] with
  | Found path l k old h r => Some (plug_all path (Node l k value h r), Some old, S (length path))
  | Missing path =>
      match rebalance path (Node Leaf key value 1 Leaf) with
      | Some t => Some (t, None, S (length path))
      | None => None
      end
  end.

(** tree.c 21 MAXH on a 64-bit machine *)
Definition MAXH : nat := 96.

Fixpoint insert_all (t : tree) (kvs : list (bytes * V)) : option tree :=
  match kvs with
  | [] => Some t
  | (k, v) :: kvs' => match treeinsert t k v with
                      | Some (t', _, _) => insert_all t' kvs'
                      | None => None
                      end
  end.
End Tree.
Arguments tree : clear implicits.
