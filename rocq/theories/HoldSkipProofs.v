From Verif Require Import Base Bind Machine OrderSpec SkipSpec SkipModel SkipProofs SkipOps HoldSpec HoldProofs.

Section Skip.
  Context {K V : Type} (ltb : K -> K -> bool).
  Implicit Types (m : list (node K V)) (L : list (cell K V)).
  (** the pointers out of a node: its Forward cells *)
  Definition skip_edge m (a b : nat) : Prop := exists i, getf m a i = Some (Some b).

  Lemma path_next m i L : forall a c b, path m i a L -> In c L -> getf m (cid c) i = Some (Some b) -> In b (ids L).
  Proof.
    induction L as [|x L IH]; intros a c b Hp Hc Hg; [destruct Hc|]. cbn [path] in Hp. destruct Hp as (_ & Hp). cbn [ids map].
    destruct Hc as [->|Hc]; right; [|eapply IH; eauto]. destruct L as [|y L]; cbn [path] in Hp; [congruence|]. destruct Hp as (Hp & _). left. congruence.
  Qed.
  Lemma path_first m i L a b : path m i a L -> getf m a i = Some (Some b) -> In b (ids L).
  Proof. destruct L as [|x L]; cbn [path]; intros H Hg; [congruence|]. destruct H as (H & _). left. congruence. Qed.
  Lemma path_held m (rt : nat -> Prop) i L : forall a, path m i a L -> held (skip_edge m) rt a -> forall b, In b (ids L) -> held (skip_edge m) rt b.
  Proof.
    induction L as [|x L IH]; intros a Hp Ha b Hb; [destruct Hb|]. cbn [path] in Hp. destruct Hp as (H1 & H2).
    assert (Hx : held (skip_edge m) rt (cid x)) by (apply (held_edge _ _ a _ Ha); exists i; exact H1). destruct Hb as [<-|Hb]; [exact Hx|]. eapply IH; eauto.
  Qed.
  Lemma ids_of_at i L b : In b (ids (at_ i L)) -> In b (ids L).
  Proof. intros H. apply in_map_iff in H as (c & <- & H). apply at_in in H as (H & _). now apply in_map. Qed.

  Lemma skip_holds (s : skiplist K V) (xs : list (K * V)) : rel ltb s xs -> holds_just (skip_edge (mem s)) (eq (header s)) [header s] (entry (mem s)) xs.
  Proof.
    intros (L & HI & <-). destruct (si_mem _ _ _ HI) as [M1 M2 M3 M4]. apply (holds_intro _ _ _ _ _ (ids L)); cbn [app]; auto.
    - intros a <-. now left.
    - intros a b Ha (i & Hg). right. destruct Ha as [<-|Ha].
      + assert (Hi : i < 16).
        { unfold flen in M1. unfold getf in Hg. destruct (nth_error (mem s) (header s)) as [nd|]; [|discriminate]. cbn in M1, Hg. injection M1 as M1.
          rewrite <- M1. apply nth_error_Some. congruence. }
        apply (ids_of_at i). exact (path_first _ _ _ _ _ (M4 i Hi) Hg).
      + apply in_map_iff in Ha as (c & <- & Hc). destruct (Nat.lt_ge_cases i (cht c)) as [Hi|Hi].
        * pose proof (si_ht _ _ _ HI c Hc). pose proof (si_level _ _ _ HI). pose proof (si_max _ _ _ HI).
          apply (ids_of_at i). apply (path_next _ _ _ _ c b (M4 i ltac:(lia))); [|exact Hg]. apply at_in. auto.
        * destruct (M3 c Hc) as (_ & _ & _ & Hb). specialize (Hb i _ Hi Hg). discriminate.
    - assert (Hr : held (skip_edge (mem s)) (eq (header s)) (header s)) by (apply held_root; reflexivity).
      intros a [<-|Ha]; [exact Hr|]. apply (path_held _ _ 0 (at_ 0 L) (header s)); [apply M4; lia|exact Hr|]. now rewrite (at_zero (mem s)) by exact M3.
    - unfold ids, ents. rewrite !map_map. apply map_ext_in. intros c Hc. apply (M3 c Hc).
  Qed.
End Skip.
