From Verif Require Import Base Bind Machine DLL HoldSpec.

Section Held.
  Context {X : Type} (edge : X -> X -> Prop) (root : X -> Prop).
  Lemma holds_intro {E} (own : list X) (val : X -> option E) (xs : list E) l : NoDup (own ++ l) ->
    (forall a, root a -> In a (own ++ l)) -> (forall a b, In a (own ++ l) -> edge a b -> In b (own ++ l)) ->
    (forall a, In a (own ++ l) -> held edge root a) -> map val l = map Some xs -> holds_just edge root own val xs.
  Proof.
    intros Hn Hr He Hh Hv. exists l. split; [exact Hn|]. split; [|exact Hv]. intros a. split; [|apply Hh].
    induction 1 as [a H|a b H IH H']; eauto.
  Qed.
  Lemma holds_own {E} (own own' : list X) (val : X -> option E) (xs : list E) : Permutation own own' ->
    holds_just edge root own val xs -> holds_just edge root own' val xs.
  Proof.
    intros P (l & H1 & H2 & H3). pose proof (Permutation_app_tail l P) as Q. exists l. split; [exact (Permutation_NoDup Q H1)|]. split; [|exact H3].
    intros a. rewrite H2. split; apply Permutation_in; [exact Q|symmetry; exact Q].
  Qed.
End Held.

(** ** doubly linked chains *)
Section Chain.
  Context {V : Type}.
  Definition dll_edge (h : heap V) (a b : nat) : Prop := exists nd, nth_error h a = Some nd /\ (nprev nd = Some b \/ nnext nd = Some b).
  Definition dll_val (h : heap V) (a : nat) : option V := option_map nval (nth_error h a).

  Lemma chain_edge (h : heap V) L : forall p n a b, chain h p L n -> In a (map fst L) -> dll_edge h a b ->
    In b (map fst L) \/ p = Some b \/ n = Some b.
  Proof.
    induction L as [|(x, v) L IH]; intros p n a b Hc Ha He; [destruct Ha|]. cbn [chain map fst] in *. destruct Hc as (H1 & H2).
    destruct Ha as [<-|Ha].
    - destruct He as (nd & En & H). rewrite H1 in En. injection En as <-. cbn [nprev nnext] in H. destruct H as [H|H]; [auto|].
      destruct L as [|(y, w) L]; cbn [hd_ptr] in H; [auto|]. left. right. left. cbn. congruence.
    - destruct (IH _ _ a b H2 Ha He) as [H|[H|H]]; [left; now right|left; left; congruence|auto].
  Qed.
  Lemma chain_held (root : nat -> Prop) (h : heap V) L : forall p n, chain h p L n ->
    (forall a, hd_ptr L None = Some a -> held (dll_edge h) root a) -> forall a, In a (map fst L) -> held (dll_edge h) root a.
  Proof.
    induction L as [|(x, v) L IH]; intros p n Hc Hh a Ha; [destruct Ha|]. cbn [chain map fst] in *. destruct Hc as (H1 & H2).
    pose proof (Hh x eq_refl) as Hx. destruct Ha as [<-|Ha]; [exact Hx|]. apply (IH _ _ H2); [|exact Ha].
    intros b Hb. apply (held_edge _ _ x b Hx). eexists. split; [exact H1|]. right. cbn [nnext]. destruct L as [|(y, w) L]; [discriminate|exact Hb].
  Qed.
  Lemma chain_vals (h : heap V) L : forall p n, chain h p L n -> map (dll_val h) (map fst L) = map Some (map snd L).
  Proof.
    induction L as [|(x, v) L IH]; intros p n Hc; [reflexivity|]. cbn [chain map fst snd] in *. destruct Hc as (H1 & H2).
    rewrite (IH _ _ H2). unfold dll_val. rewrite H1. reflexivity.
  Qed.

  (** no sentinels *)
  Lemma chain_holds (root : nat -> Prop) (h : heap V) L : chain h None L None -> NoDup (map fst L) ->
    (forall a, root a -> In a (map fst L)) -> (forall a, hd_ptr L None = Some a -> root a) ->
    holds_just (dll_edge h) root [] (dll_val h) (map snd L).
  Proof.
    intros Hc Hn Hr Hh. apply (holds_intro _ _ _ _ _ (map fst L)); cbn [app]; auto.
    - intros a b Ha He. destruct (chain_edge h L None None a b Hc Ha He) as [H|[H|H]]; congruence.
    - apply (chain_held root h L None None Hc). intros a Ha. apply held_root. auto.
    - apply (chain_vals h L None None Hc).
  Qed.
  (** one at each end *)
  Lemma ring_holds (root : nat -> Prop) (h : heap V) ah vh L at_ vt : chain h None ((ah, vh) :: L ++ [(at_, vt)]) None ->
    NoDup (map fst ((ah, vh) :: L ++ [(at_, vt)])) -> root ah ->
    (forall a, root a -> a = ah \/ In a (map fst L) \/ a = at_) ->
    holds_just (dll_edge h) root [ah; at_] (dll_val h) (map snd L).
  Proof.
    intros Hc Hn Ha Hr. pose proof Hn as Hn'. cbn [map fst] in Hn'. rewrite map_app in Hn'. cbn [map fst] in Hn'.
    assert (Hin : forall a, In a ([ah; at_] ++ map fst L) <-> In a (map fst ((ah, vh) :: L ++ [(at_, vt)]))).
    { intros a. cbn [map fst In app]. rewrite map_app, in_app_iff. cbn [map fst In]. tauto. }
    apply (holds_intro _ _ _ _ _ (map fst L)).
    - cbn [app]. apply (Permutation_NoDup (l := ah :: map fst L ++ [at_])); [|exact Hn']. apply perm_skip. symmetry. apply Permutation_cons_append.
    - intros a H. apply Hr in H. cbn [app In]. destruct H as [->|[H| ->]]; auto.
    - intros a b H He. apply Hin in H. apply Hin. destruct (chain_edge h _ None None a b Hc H He) as [X|[X|X]]; congruence.
    - intros a H. apply Hin in H. apply (chain_held root h _ None None Hc); [|exact H]. intros b Hb. cbn [hd_ptr] in Hb. apply held_root. congruence.
    - change ((ah, vh) :: L ++ [(at_, vt)]) with ([(ah, vh)] ++ L ++ [(at_, vt)]) in Hc. apply chain_app in Hc as (_ & Hc). apply chain_app in Hc as (Hc & _).
      exact (chain_vals h L _ _ Hc).
  Qed.
End Chain.
