(** Running operation sequences.  [None] from a model step means the Go code panics (or that
    explicit fuel ran out, which the theorems exclude by asking for [Some]). *)
From Verif Require Import Base.

Section Machine.
  Context {S T O R : Type}.

  (** Run a model: the list of results of all operations, [None] as soon as one panics. *)
  Fixpoint run (step : S -> O -> option (S * R)) (s : S) (ops : list O) : option (list R) :=
    match ops with
    | [] => Some []
    | o :: ops' =>
        match step s o with
        | None => None
        | Some (s', r) => option_map (cons r) (run step s' ops')
        end
    end.

  (** The state a model reaches, if it does not panic. *)
  Fixpoint reach (step : S -> O -> option (S * R)) (s : S) (ops : list O) : option S :=
    match ops with
    | [] => Some s
    | o :: ops' => match step s o with None => None | Some (s', _) => reach step s' ops' end
    end.

  (** Run a specification (total). *)
  Fixpoint srun (step : T -> O -> T * R) (t : T) (ops : list O) : list R :=
    match ops with
    | [] => []
    | o :: ops' => let '(t', r) := step t o in r :: srun step t' ops'
    end.

  Fixpoint sreach (step : T -> O -> T * R) (t : T) (ops : list O) : T :=
    match ops with
    | [] => t
    | o :: ops' => sreach step (fst (step t o)) ops'
    end.
End Machine.

Section Simulation.
  Context {S T O R : Type} (step : S -> O -> option (S * R)) (sstep : T -> O -> T * R)
          (Rel : S -> T -> Prop).
  Hypothesis Hsim : forall s t o, Rel s t ->
    exists s', step s o = Some (s', snd (sstep t o)) /\ Rel s' (fst (sstep t o)).

  Lemma sim_run ops : forall s t, Rel s t -> run step s ops = Some (srun sstep t ops).
  Proof.
    induction ops as [|o ops IH]; intros s t H; simpl; auto.
    destruct (Hsim s t o H) as (s' & E & H'). rewrite E.
    destruct (sstep t o) as [t' r]; simpl in *. now rewrite (IH _ _ H').
  Qed.

  Lemma sim_reach ops : forall s t, Rel s t ->
    exists s', reach step s ops = Some s' /\ Rel s' (sreach sstep t ops).
  Proof.
    induction ops as [|o ops IH]; intros s t H; simpl; eauto.
    destruct (Hsim s t o H) as (s' & E & H'). rewrite E. apply IH; assumption.
  Qed.
End Simulation.

Section Invariant.
  Context {S O R : Type} (step : S -> O -> option (S * R)) (Inv : S -> Prop).
  Hypothesis Hstep : forall s o s' r, Inv s -> step s o = Some (s', r) -> Inv s'.
  Lemma inv_reach ops : forall s s', Inv s -> reach step s ops = Some s' -> Inv s'.
  Proof.
    induction ops as [|o ops IH]; intros s s' H E; simpl in E.
    - congruence.
    - destruct (step s o) as [[s1 r]|] eqn:E1; [|discriminate]. eauto.
  Qed.
End Invariant.
