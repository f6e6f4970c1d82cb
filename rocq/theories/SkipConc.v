(** Skip lists used by several goroutines: the locks of tree/skiplist/skiplist.go.

    Each goroutine makes a list of calls.  A call is a program of small steps: taking the lock of a list, or one access to
    the memory of one list (which may panic).  When its work is done it gives its locks back one by one, the last one taken
    first (the deferred Unlocks), and returns.  A schedule says which goroutine makes the next step; sync.Mutex is not
    reentrant, a goroutine that asks for a lock in use stands still.  Every access is one step of a single memory: what the
    Go memory model does to racy accesses is not modelled.  The lists made by set operations are known to one goroutine only. *)
From Verif Require Import Base Bind SkipSpec SkipModel.

Section Conc.
  Context {K V : Type} (cmp : K -> K -> Z).
  Notation list_ := (skiplist K V).

  (** a program: [Do l w k] replaces list [l], now [s], by [w s] and goes on with [k s]; [w s = None] is a panic *)
  Inductive prog :=
  | Ret (r : answer K V)
  | Lock (l : nat) (p : prog)
  | Do (l : nat) (w : list_ -> option list_) (k : list_ -> prog).

  (** a goroutine: the calls to come, the call at work and what is left of it, the locks it has *)
  Record thread := Th { todo : list (call K V); work : option (call K V * prog); held : list nat }.
  (** [log]: the goroutine, call and result of every call, in the order in which they finished their work *)
  Record conf := Cf { store : nat -> list_; locked : nat -> bool; ths : list thread; log : list (nat * call K V * answer K V) }.

  Section Run.
    Context (impl : call K V -> prog).
    (** one step of goroutine [t]; it changes nothing if [t] has finished or waits for a lock.  [None]: panic *)
    Definition cstep (c : conf) (t : nat) : option conf :=
      match nth_error (ths c) t with
      | None => Some c
      | Some (Th td wk h) =>
          let go th := list_set (ths c) t th in
          match wk with
          | Some (k, Ret r) => Some (Cf (store c) (locked c) (go (Th td None h)) (log c ++ [(t, k, r)]))
          | Some (k, Lock l p) =>
              if locked c l then Some c
              else Some (Cf (store c) (upd (locked c) l true) (go (Th td (Some (k, p)) (l :: h))) (log c))
          | Some (k, Do l w p) =>
              s <- w (store c l) ;;
              Some (Cf (upd (store c) l s) (locked c) (go (Th td (Some (k, p (store c l))) h)) (log c))
          | None =>
              match h, td with
              | l :: h', _ => Some (Cf (store c) (upd (locked c) l false) (go (Th td None h')) (log c))
              | [], k :: td' => Some (Cf (store c) (locked c) (go (Th td' (Some (k, impl k)) [])) (log c))
              | [], [] => Some c
              end
          end
      end.
    Fixpoint cruns (c : conf) (sched : list nat) : option conf :=
      match sched with [] => Some c | t :: sched' => c' <- cstep c t ;; cruns c' sched' end.
    (** can goroutine [t] make a step? *)
    Definition can (c : conf) (t : nat) : bool :=
      match nth_error (ths c) t with
      | None | Some (Th [] None []) => false
      | Some (Th _ (Some (_, Lock l _)) _) => negb (locked c l)
      | Some _ => true
      end.
    Definition over (th : thread) : bool := match th with Th [] None [] => true | _ => false end.
  End Run.
  (** the beginning: the lists in [g], the goroutines with their calls *)
  Definition start (g : nat -> list_) (calls : list (list (call K V))) : conf :=
    Cf g (fun _ => false) (map (fun cs => Th cs None []) calls) [].

  (** a call on its own, without locks *)
  Fixpoint alone (p : prog) (g : nat -> list_) : option ((nat -> list_) * answer K V) :=
    match p with
    | Ret r => Some (g, r)
    | Lock _ p' => alone p' g
    | Do l w k => s <- w (g l) ;; alone (k (g l)) (upd g l s)
    end.
  (** one call after the other, by SkipModel.v *)
  Definition call_alone (g : nat -> list_) (c : call K V) : option ((nat -> list_) * answer K V) :=
    match c with
    | On l o => '(s, r) <- sk_step cmp (g l) o ;; Some (upd g l s, Out r)
    | Meet a b rs => s <- Intersection cmp (g a) (g b) rs ;; m <- slice s ;; Some (g, Made m)
    | Join a b rs => s <- UnionSets cmp (g a) (g b) rs ;; m <- slice s ;; Some (g, Made m)
    | Minus a b rs => s <- DifferenceSets cmp (g a) (g b) rs ;; m <- slice s ;; Some (g, Made m)
    end.

  (** ** The calls as programs, coarsely: everything between two uses of a lock is one step.  Finer programs are a
      parameter of the theorems.  An access that only reads: *)
  Definition read {T : Type} (l : nat) (f : list_ -> option T) (k : T -> prog) : prog :=
    Do l (fun s => _ <- f s ;; Some s) (fun s => match f s with Some x => k x | None => Ret (Out KUnit) end).
  (** a method with Lock, defer Unlock and its body: skiplist.go 62-63, 111-112, 130-131, 166-167, 180-181, 192-193, 209-210,
      228-229, 244-245, 261-262, 457-458, 506-507, 562-563, 612-613, 666-667, 797-798, 815-816 *)
  Definition under (l : nat) (f : list_ -> option (list_ * answer K V)) : prog :=
    Lock l (Do l (fun s => '(s', _) <- f s ;; Some s') (fun s => Ret match f s with Some (_, r) => r | None => Out KUnit end)).
  Definition method (l : nat) (o : sk_op K V) : prog := under l (fun s => '(s', r) <- sk_step cmp s o ;; Some (s', Out r)).
  (** skiplist.go 449-454: RemoveHead reads the size and the first key, and only then calls Remove *)
  Definition removeHead_ (l : nat) : prog :=
    read l (fun s => Some (size s)) (fun n =>
      if (n =? 0)%Z then Ret (Out (KEntry None))
      else read l (fun s => p <- getf (mem s) (header s) 0 ;; b <- p ;; entry (mem s) b) (fun e => method l (KRemove (fst e)))).
  Definition made (r : option (list (K * V))) : answer K V := match r with Some m => Made m | None => Out KUnit end.
  (** skiplist.go 678-695: Intersection.  The loop, having collected [res], is at the entries [es] of [a] *)
  Fixpoint meetLoop (b : nat) (es res : list (K * V)) : prog :=
    match es with
    | [] => Ret (Made res)
    | e :: es' =>
        read b (fun s => search cmp s (fst e)) (fun f =>
          meetLoop b es' (match f with Some e' => res ++ [(fst e, snd e')] | None => res end))
    end.
  Definition meet_ (a b : nat) : prog := Lock a (Lock b (read a slice (fun es => meetLoop b es []))).
  (** skiplist.go 756-778: UnionSets *)
  Definition join_ (a b : nat) (rs : list nat) : prog :=
    Lock a (read a slice (fun es => Lock b (read b slice (fun es' =>
      Ret (made ('(s, rs') <- putAll cmp New es rs ;; '(s', _) <- putAll cmp s es' rs' ;; slice s')))))).
  (** skiplist.go 780-794: DifferenceSets looks into the other list without its lock *)
  Fixpoint minusLoop (b : nat) (es res : list (K * V)) : prog :=
    match es with
    | [] => Ret (Made res)
    | e :: es' =>
        read b (fun s => search cmp s (fst e)) (fun f =>
          minusLoop b es' (match f with Some _ => res | None => res ++ [e] end))
    end.
  Definition minus_ (a b : nat) : prog := Lock a (read a slice (fun es => minusLoop b es [])).
  (** all calls; Set is Put (501-503), Slices is Slice (878-880).  The entries found by Intersection and DifferenceSets are
      put into the new list in their order, so collecting them in a list stands for that (SkipSets.v) *)
  Definition coarse (c : call K V) : prog :=
    match c with
    | On l KRemoveHead => removeHead_ l
    | On l o => method l o
    | Meet a b _ => meet_ a b
    | Join a b rs => join_ a b rs
    | Minus a b _ => minus_ a b
    end.
End Conc.
Arguments prog K V : clear implicits.
Arguments thread K V : clear implicits.
Arguments conf K V : clear implicits.
