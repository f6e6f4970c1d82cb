(** The String functions of the containers, as strings of bytes.
    [show] is what fmt prints for one element with %v, any function: the elements are of any type.  Of the package fmt, which is not
    code of /repo, the printing of slices and maps is modelled as printValue of fmt/print.go does it: elements separated by
    blanks, in brackets; the entries of a map in some order (internal/fmtsort), key and value separated by a colon. *)
From Coq Require Export Strings.Ascii Strings.String.
From Verif Require Import Base Bind AvlTree AvlModel.
From Verif Require ArrayListModel LinkedListModel LinkedHashModel HashModel GoMap StackModel.
Local Open Scope string_scope.

Section Fmt.
  Context {A : Type} (show : A -> string).
  (** fmt/print.go printValue, case Array, Slice: [if i > 0 { p.buf.writeByte(' ') }] before element [i] *)
  Fixpoint print_elements (i : nat) (l : list A) : string :=
    match l with
    | [] => ""
    | x :: l' => (if Nat.ltb 0 i then " " else "") ++ show x ++ print_elements (S i) l'
    end.
  (** fmt.Sprintf("%v", slice) *)
  Definition print_slice (l : list A) : string := "[" ++ print_elements 0 l ++ "]".
  (** fmt.Sprintf("%v", m): [sorted] are the entries in the order of fmtsort *)
  Definition print_map (sorted : list A) : string := "map[" ++ print_elements 0 sorted ++ "]".
End Fmt.

(** ** stacks and lists *)
Section Linear.
  Context {A : Type} (show : A -> string) (zero : A).
  (** stack/array/stack.go 62-64 *)
  Definition string_array_stack (s : StackModel.ArrayStack.st (A := A)) : string :=
    print_slice show (firstn (StackModel.ArrayStack.len s) (StackModel.ArrayStack.buf s)).
  (** stack/list/stack.go 41-43 *)
  Definition string_list_stack (s : StackModel.ListStack.st (A := A)) : option string :=
    v <- StackModel.ListStack.values zero s ;; Some (print_slice show v).
  (** stack/listarray/stack.go 94-97 *)
  Definition string_seg_stack (s : StackModel.SegStack.st (A := A)) : option string :=
    v <- StackModel.SegStack.values zero s ;; Some (print_slice show v).
  (** list/array_list/array_list.go 264-266 *)
  Definition string_array_list (limit : Z) (l : ArrayListModel.alist (A := A)) : ArrayListModel.outcome string :=
    ArrayListModel.bind (ArrayListModel.values zero limit l) (fun v => ArrayListModel.Ok (print_slice show v)).
  (** list/linked_list/linked_list.go 253-255 *)
  Definition string_linked_list (l : LinkedListModel.llist (A := A)) : option string :=
    v <- LinkedListModel.values l ;; Some (print_slice show v).
End Linear.

(** ** maps and sets *)
Section Keyed.
  Context {K V : Type} (showk : K -> string) (showv : V -> string).
  (** map/linkedhashmap/linked_hashmap.go 37-39, tree/treelist/tree.go 16-18 and 31-33: Slice.String *)
  Definition string_slice (e : K * V) : string := "{" ++ showk (fst e) ++ ":" ++ showv (snd e) ++ "}".
  (** map/linkedhashmap/linked_hashmap.go 296-298: fmt.Sprint of []Slice calls Slice.String for the elements *)
  Definition string_linkedhashmap (m : LinkedHashModel.lhm (K := K) (V := V)) : option string :=
    l <- LinkedHashModel.slices m ;; Some (print_slice string_slice l).
  (** map/hashmap/hashmap.go 130-133; [sort] is fmtsort.Sort *)
  Definition string_hashmap (sort : GoMap.gmap K V -> GoMap.gmap K V) (m : HashModel.hmap (K := K) (V := V)) : string :=
    print_map (fun e => showk (fst e) ++ ":" ++ showv (snd e)) (sort (HashModel.hm m)).
  (** strings.Join: the first, then the separator and the next one, and so on *)
  Fixpoint join_rest (sep : string) (items : list string) : string :=
    match items with [] => "" | s :: items' => sep ++ s ++ join_rest sep items' end.
  Definition join (sep : string) (items : list string) : string :=
    match items with [] => "" | s :: items' => s ++ join_rest sep items' end.
  (** set/hashset/hashset.go 72-81; [order] is the order of the range loop *)
  Definition string_hashset (order : nat -> GoMap.gmap K unit -> GoMap.gmap K unit) (s : HashModel.hset (K := K)) : string :=
    "[" ++ join "," (map (fun e => showk (fst e)) (order (HashModel.stick s) (HashModel.hs s))) ++ "]".

  (** set/treeset/tree.go 168-176: str, writing after what [content] holds *)
  Fixpoint str (root : tree K V) (content : string) : string :=
    match root with
    | E => content
    | N _ _ v l r => str r (str l content ++ showv v ++ " ")
    end.
  (** set/treeset/tree.go 186-190: the last byte of [buf] becomes a bracket if it is a blank, otherwise a bracket is appended;
      [None]: the index of the last byte of an empty buffer is out of range *)
  Fixpoint close (buf : string) : option string :=
    match buf with
    | EmptyString => None
    | String c EmptyString => Some (if Ascii.eqb c " " then "]" else String c "]")
    | String c buf' => b <- close buf' ;; Some (String c b)
    end.
  (** set/treeset/tree.go 178-193: String *)
  Definition string_treeset (s : avl K V) : option string := close (str (root s) "[").
  (** tree/avl/node.go 14-16, tree/avls/node.go 14-16, set/treeset/node.go 14-16, queue/priority/node.go 14-16: Node.String *)
  Definition string_node (k : K) (v : V) : string := showk k ++ "(" ++ showv v ++ ")".

  (** ** the drawing of an index tree
      tree/indextree/debug_utils.go 98-129: outputfordebugNoSuffix, writing after what [text] holds; ESC is byte 27 *)
  Definition esc (s : string) : string := String (ascii_of_nat 27) s.
  Definition newline : string := String (ascii_of_nat 10) "".
  Fixpoint outputfordebugNoSuffix (node : tree K V) (prefix : string) (isTail : bool) (text : string) : string :=
    match node with
    | E => text
    | N _ k _ l r =>
        let text := match r with
                    | E => text
                    | N _ _ _ _ _ =>
                        let newPrefix := prefix ++ (if isTail then esc ("[34m│   " ++ esc "[0m") else "    ") in
                        outputfordebugNoSuffix r newPrefix false text
                    end in
        let text := text ++ prefix in
        let text := text ++ (if isTail then esc ("[34m└── " ++ esc "[0m") else esc ("[31m┌── " ++ esc "[0m")) in
        let text := text ++ showk k ++ newline in
        match l with
        | E => text
        | N _ _ _ _ _ =>
            let newPrefix := prefix ++ (if isTail then "    " else esc ("[31m│   " ++ esc "[0m")) in
            outputfordebugNoSuffix l newPrefix true text
        end
    end.
  (** tree/indextree/tree.go 36-38 String and debug_utils.go 131-146 debugString, with IsDebugString false (tree.go 9) *)
  Definition string_indextree (t : tree K V) : string :=
    let text := "IndexTree" ++ newline in
    match t with E => text ++ "nil" | _ => outputfordebugNoSuffix t "" true text end.
End Keyed.
(** tree/skiplist/skiplist.go 557-559 *)
Definition string_skiplist : string := "skiplist".
