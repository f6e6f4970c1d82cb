(** Skip lists and goroutines: calls that keep their locks to the end act at once; locks taken in order never deadlock. *)
From Verif Require Import Base Bind Machine OrderSpec SMapSpec SMapFacts SkipSpec SkipModel SkipProofs SkipOps SkipSets SkipConc.

Lemma srun_snoc {T O R} (step : T -> O -> T * R) ops o : forall t, srun step t (ops ++ [o]) = srun step t ops ++ [snd (step (sreach step t ops) o)].
Proof. induction ops as [|x ops IH]; intros t; cbn [app srun sreach]; [destruct (step t o); reflexivity|]. destruct (step t x) as [t' r] eqn:E. cbn [fst app]. now rewrite IH. Qed.
Lemma sreach_snoc {T O R} (step : T -> O -> T * R) ops o : forall t, sreach step t (ops ++ [o]) = fst (step (sreach step t ops) o).
Proof. induction ops as [|x ops IH]; intros t; cbn [app sreach]; auto. Qed.
Lemma nth_set {T} (l : list T) i j x y : nth_error l i = Some y -> nth_error (list_set l i x) j = if j =? i then Some x else nth_error l j.
Proof.
  intros H. destruct (Nat.eqb_spec j i) as [->|N]; [apply nth_error_list_set_eq; apply nth_error_Some; congruence|apply nth_error_list_set_neq; auto].
Qed.
Lemma upd_eq {T} (g : nat -> T) l x : upd g l x l = x. Proof. unfold upd. now rewrite Nat.eqb_refl. Qed.
Lemma upd_neq {T} (g : nat -> T) l l' x : l' <> l -> upd g l x l' = g l'. Proof. intros N. unfold upd. apply Nat.eqb_neq in N. now rewrite N. Qed.

Section Conc.
  Context {K V : Type} (ltb : K -> K -> bool) (W : weak_order ltb) (cmp : K -> K -> Z) (Hc : sign_cmp ltb cmp).
  Notation store_t := (nat -> skiplist K V).
  Implicit Types (g gs : store_t) (p : prog K V) (c : conf K V) (th : thread K V).

  Definition same_res (x y : option (store_t * answer K V)) : Prop :=
    match x, y with None, None => True | Some (g, r), Some (g', r') => r = r' /\ forall l, g l = g' l | _, _ => False end.
  Lemma same_res_refl x : same_res x x. Proof. destruct x as [[]|]; cbn; auto. Qed.
  Lemma same_res_sym x y : same_res x y -> same_res y x.
  Proof. destruct x as [[]|], y as [[]|]; cbn; auto. intros (-> & H). auto. Qed.
  Lemma same_res_trans x y z : same_res x y -> same_res y z -> same_res x z.
  Proof. destruct x as [[]|], y as [[]|], z as [[]|]; cbn; auto; try tauto. intros (-> & H) (-> & H'). split; auto. intros. now rewrite H. Qed.
  Lemma alone_ext p : forall g g', (forall l, g l = g' l) -> same_res (alone p g) (alone p g').
  Proof.
    induction p as [r|l p IH|l w k IH]; intros g g' H; cbn [alone]; [cbn; auto|auto|]. rewrite <- (H l). destruct (w (g l)) as [s|]; [|exact Logic.I]. apply IH.
    intros l'. unfold upd. destruct (l' =? l); auto.
  Qed.

  (** every access to a list happens while its lock is held *)
  Fixpoint strict (h : list nat) p : Prop :=
    match p with Ret _ => True | Lock l p' => strict (l :: h) p' | Do l _ k => In l h /\ forall s, strict h (k s) end.
  Definition merge (h : list nat) g g' : store_t := fun l => if existsb (Nat.eqb l) h then g l else g' l.
  Lemma merge_in h g g' l : In l h -> merge h g g' l = g l.
  Proof. intros H. unfold merge. replace (existsb (Nat.eqb l) h) with true; auto. symmetry. apply existsb_exists. exists l. split; auto. apply Nat.eqb_refl. Qed.
  Lemma merge_out h g g' l : ~ In l h -> merge h g g' l = g' l.
  Proof. intros H. unfold merge. destruct (existsb (Nat.eqb l) h) eqn:E; auto. apply existsb_exists in E as (x & Hx & E). apply Nat.eqb_eq in E. subst. contradiction. Qed.

  (** ** One call at a time *)
  Definition relg g (ms : nat -> list (K * V)) : Prop := forall l, rel ltb (g l) (ms l).
  Lemma relg_upd g ms l s m : relg g ms -> rel ltb s m -> relg (upd g l s) (upd ms l m).
  Proof. intros H H1 l'. unfold upd. destruct (l' =? l); auto. Qed.
  Lemma call_sim g ms k : relg g ms -> exists g', call_alone cmp g k = Some (g', snd (call_spec ltb ms k)) /\ relg g' (fst (call_spec ltb ms k)).
  Proof.
    intros H. destruct k as [l o|a b rs|a b rs|a b rs]; cbn [call_alone call_spec fst snd].
    - destruct (sk_sim ltb W cmp Hc (g l) (ms l) o (H l)) as (s' & -> & H'). eexists. split; [reflexivity|]. now apply relg_upd.
    - destruct (Intersection_ok ltb W cmp Hc (g a) _ (g b) _ rs (H a) (H b)) as (s' & -> & H'). rewrite (slice_ok ltb s' _ H'). eauto.
    - destruct (UnionSets_ok ltb W cmp Hc (g a) _ (g b) _ rs (H a) (H b)) as (s' & -> & H'). rewrite (slice_ok ltb s' _ H'). eauto.
    - destruct (DifferenceSets_ok ltb W cmp Hc (g a) _ (g b) _ rs (H a) (H b)) as (s' & -> & H'). rewrite (slice_ok ltb s' _ H'). eauto.
  Qed.

  (** the states a list can get into *)
  Definition reachable (s : skiplist K V) : Prop := exists lv ops, reach (sk_step cmp) (NewWithMaxLevel lv) ops = Some s.
  Lemma reach_snoc ops o : forall s s1 s2 r, reach (sk_step (V:=V) cmp) s ops = Some s1 -> sk_step cmp s1 o = Some (s2, r) -> reach (sk_step cmp) s (ops ++ [o]) = Some s2.
  Proof.
    induction ops as [|x ops IH]; intros s s1 s2 r E1 E2; cbn [reach app] in *; [injection E1 as <-; now rewrite E2|].
    destruct (sk_step cmp s x) as [[s' r']|]; [|discriminate]. eapply IH; eauto.
  Qed.
  Lemma reachable_step s o s' r : reachable s -> sk_step cmp s o = Some (s', r) -> reachable s'.
  Proof. intros (lv & ops & E) E'. exists lv, (ops ++ [o]). eapply reach_snoc; eauto. Qed.
  Lemma reachable_rel s : reachable s -> exists m, rel ltb s m.
  Proof.
    intros (lv & ops & E). destruct (sim_reach (sk_step cmp) (sk_spec ltb) (rel ltb) (fun s m o => sk_sim ltb W cmp Hc s m o) ops (NewWithMaxLevel lv) [] (new_rel ltb lv)) as (s' & E' & H).
    rewrite E in E'. injection E' as <-. eauto.
  Qed.
  Definition entries_of (s : skiplist K V) : list (K * V) := match slice s with Some m => m | None => [] end.
  Lemma reachable_relg g : (forall l, reachable (g l)) -> relg g (fun l => entries_of (g l)).
  Proof. intros H l. destruct (reachable_rel _ (H l)) as (m & Hm). unfold entries_of. now rewrite (slice_ok ltb _ m Hm). Qed.
  Lemma call_reachable g k g' r : (forall l, reachable (g l)) -> call_alone cmp g k = Some (g', r) -> forall l, reachable (g' l).
  Proof.
    intros H E l. destruct k as [l0 o|a b rs|a b rs|a b rs]; cbn [call_alone] in E.
    - destruct (sk_step cmp (g l0) o) as [[s r']|] eqn:E0; [|discriminate]. injection E as <- <-. unfold upd. destruct (l =? l0); auto. eapply reachable_step; eauto.
    - destruct (Intersection cmp (g a) (g b) rs); [|discriminate]. destruct (slice s); [|discriminate]. injection E as <- <-. auto.
    - destruct (UnionSets cmp (g a) (g b) rs); [|discriminate]. destruct (slice s); [|discriminate]. injection E as <- <-. auto.
    - destruct (DifferenceSets cmp (g a) (g b) rs); [|discriminate]. destruct (slice s); [|discriminate]. injection E as <- <-. auto.
  Qed.

  (** ** Atomicity *)
  Section Atomic.
    Context (impl : call K V -> prog K V).
    Context (Himpl : forall k, well_locked k = true -> strict [] (impl k) /\
      forall g, (forall l, reachable (g l)) -> same_res (alone (impl k) g) (call_alone cmp g k)).
    Context (m0 : nat -> list (K * V)).

    Definition calls_of (lg : list (nat * call K V * answer K V)) := map (fun x => snd (fst x)) lg.
    Record Inv c gs : Prop := {
      iv_lock : forall l, locked c l = true -> exists t th, nth_error (ths c) t = Some th /\ In l (held th);
      iv_held : forall t th l, nth_error (ths c) t = Some th -> In l (held th) -> locked c l = true;
      iv_one : forall t t' th th' l, nth_error (ths c) t = Some th -> nth_error (ths c) t' = Some th' -> In l (held th) -> In l (held th') -> t = t';
      iv_nodup : forall t th, nth_error (ths c) t = Some th -> NoDup (held th);
      iv_free : forall l, locked c l = false -> store c l = gs l;
      iv_idle : forall t th l, nth_error (ths c) t = Some th -> work th = None -> In l (held th) -> store c l = gs l;
      iv_todo : forall t th k, nth_error (ths c) t = Some th -> In k (todo th) -> well_locked k = true;
      iv_work : forall t th k p, nth_error (ths c) t = Some th -> work th = Some (k, p) -> well_locked k = true /\ strict (held th) p /\
        forall g, (forall l, In l (held th) -> g l = gs l) -> same_res (alone p (merge (held th) (store c) g)) (alone (impl k) g);
      iv_reach : forall l, reachable (gs l);
      iv_seq : relg gs (sreach (call_spec ltb) m0 (calls_of (log c)));
      iv_log : map snd (log c) = srun (call_spec ltb) m0 (calls_of (log c)) }.

    Lemma inv_step c gs t : Inv c gs -> exists c' gs', cstep impl c t = Some c' /\ Inv c' gs'.
    Proof.
      intros I. unfold cstep. destruct (nth_error (ths c) t) as [[td wk h]|] eqn:Et; [|exists c, gs; auto].
      destruct wk as [[k [r|l p|l w p]]|].
      - (* the work is done *)
        destruct (iv_work _ _ I t _ k (Ret r) Et eq_refl) as (Wk & _ & Hw). cbn [held] in Hw. destruct (Himpl k Wk) as (_ & Hk).
        pose proof (Hw gs (fun _ _ => eq_refl)) as H1. destruct (call_sim gs _ k (iv_seq _ _ I)) as (g' & E' & R').
        pose proof (same_res_trans _ _ _ H1 (Hk gs (iv_reach _ _ I))) as H2. rewrite E' in H2. cbn [alone same_res] in H2. destruct H2 as (-> & H2).
        eexists. exists (merge h (store c) gs). split; [reflexivity|].
        constructor; cbn [store locked ths log].
        + intros l Hl. destruct (iv_lock _ _ I l Hl) as (t' & th' & E1 & E2). destruct (Nat.eq_dec t' t) as [->|N].
          * rewrite Et in E1. injection E1 as <-. eexists t, _. rewrite (nth_set _ _ _ _ _ Et), Nat.eqb_refl. split; [reflexivity|]. exact E2.
          * exists t', th'. rewrite (nth_set _ _ _ _ _ Et). apply Nat.eqb_neq in N. now rewrite N.
        + intros t' th' l E1 E2. rewrite (nth_set _ _ _ _ _ Et) in E1. destruct (Nat.eqb_spec t' t) as [->|N].
          * injection E1 as <-. apply (iv_held _ _ I t _ l Et). exact E2.
          * apply (iv_held _ _ I t' th' l E1 E2).
        + intros t1 t2 th1 th2 l E1 E2 H3 H4. rewrite (nth_set _ _ _ _ _ Et) in E1. rewrite (nth_set _ _ _ _ _ Et) in E2. destruct (Nat.eqb_spec t1 t) as [->|N1], (Nat.eqb_spec t2 t) as [->|N2]; auto.
          * injection E1 as <-. apply (iv_one _ _ I t t2 _ th2 l Et E2); auto.
          * injection E2 as <-. apply (iv_one _ _ I t1 t th1 _ l E1 Et); auto.
          * apply (iv_one _ _ I t1 t2 th1 th2 l); auto.
        + intros t' th' E1. rewrite (nth_set _ _ _ _ _ Et) in E1. destruct (Nat.eqb_spec t' t) as [->|N]; [injection E1 as <-; apply (iv_nodup _ _ I t _ Et)|apply (iv_nodup _ _ I t' _ E1)].
        + intros l Hl. rewrite merge_out; [apply (iv_free _ _ I l Hl)|]. intros X. apply (iv_held _ _ I t _ l Et) in X. congruence.
        + intros t' th' l E1 E2 E3. rewrite (nth_set _ _ _ _ _ Et) in E1. destruct (Nat.eqb_spec t' t) as [->|N].
          * injection E1 as <-. now rewrite merge_in.
          * rewrite merge_out; [apply (iv_idle _ _ I t' th' l E1 E2 E3)|]. intros X. apply N. apply (iv_one _ _ I t' t th' _ l E1 Et); auto.
        + intros t' th' k' E1 E2. rewrite (nth_set _ _ _ _ _ Et) in E1. destruct (Nat.eqb_spec t' t) as [->|N]; [injection E1 as <-; apply (iv_todo _ _ I t _ k' Et E2)|apply (iv_todo _ _ I t' _ k' E1 E2)].
        + intros t' th' k' p' E1 E2. rewrite (nth_set _ _ _ _ _ Et) in E1. destruct (Nat.eqb_spec t' t) as [->|N]; [injection E1 as <-; discriminate|].
          destruct (iv_work _ _ I t' th' k' p' E1 E2) as (X1 & X2 & X3). split; auto. split; auto. intros g Hg. apply X3. intros l Hl. rewrite (Hg l Hl). apply merge_out.
          intros X. apply N. apply (iv_one _ _ I t' t th' _ l E1 Et); auto.
        + intros l. rewrite (H2 l). eapply call_reachable; [apply (iv_reach _ _ I)|exact E'].
        + unfold calls_of. rewrite map_app. cbn [map fst snd]. rewrite sreach_snoc. intros l. rewrite (H2 l). apply R'.
        + unfold calls_of. rewrite !map_app. cbn [map fst snd]. rewrite srun_snoc, (iv_log _ _ I). reflexivity.
      - (* a lock *)
        destruct (locked c l) eqn:El; [exists c, gs; auto|]. eexists. exists gs. split; [reflexivity|]. destruct (iv_work _ _ I t _ k (Lock l p) Et eq_refl) as (Wk & Ws & Hw). cbn [held] in *.
        assert (Nl : ~ In l h) by (intros X; apply (iv_held _ _ I t _ l Et) in X; congruence).
        assert (No : forall t' th', nth_error (ths c) t' = Some th' -> ~ In l (held th')) by (intros t' th' E1 X; apply (iv_held _ _ I t' _ l E1) in X; congruence).
        constructor; cbn [store locked ths log].
        + intros l' Hl. destruct (Nat.eq_dec l' l) as [->|Nl'].
          * eexists t, _. rewrite (nth_set _ _ _ _ _ Et), Nat.eqb_refl. split; [reflexivity|now left].
          * rewrite upd_neq in Hl by auto. destruct (iv_lock _ _ I l' Hl) as (t' & th' & E1 & E2). destruct (Nat.eq_dec t' t) as [->|N].
            -- rewrite Et in E1. injection E1 as <-. eexists t, _. rewrite (nth_set _ _ _ _ _ Et), Nat.eqb_refl. split; [reflexivity|now right].
            -- exists t', th'. rewrite (nth_set _ _ _ _ _ Et). apply Nat.eqb_neq in N. now rewrite N.
        + intros t' th' l' E1 E2. unfold upd. destruct (Nat.eqb_spec l' l); auto. rewrite (nth_set _ _ _ _ _ Et) in E1. destruct (Nat.eqb_spec t' t) as [->|N].
          * injection E1 as <-. cbn [held] in E2. destruct E2 as [E2|E2]; [congruence|]. apply (iv_held _ _ I t _ l' Et). exact E2.
          * apply (iv_held _ _ I t' th' l' E1 E2).
        + intros t1 t2 th1 th2 l' E1 E2 H3 H4. rewrite (nth_set _ _ _ _ _ Et) in E1. rewrite (nth_set _ _ _ _ _ Et) in E2. destruct (Nat.eqb_spec t1 t) as [->|N1], (Nat.eqb_spec t2 t) as [->|N2]; auto.
          * injection E1 as <-. cbn [held] in H3. destruct H3 as [<-|H3]; [destruct (No t2 th2 E2 H4)|]. apply (iv_one _ _ I t t2 _ th2 l' Et E2); auto.
          * injection E2 as <-. cbn [held] in H4. destruct H4 as [<-|H4]; [destruct (No t1 th1 E1 H3)|]. apply (iv_one _ _ I t1 t th1 _ l' E1 Et); auto.
          * apply (iv_one _ _ I t1 t2 th1 th2 l'); auto.
        + intros t' th' E1. rewrite (nth_set _ _ _ _ _ Et) in E1. destruct (Nat.eqb_spec t' t) as [->|N]; [injection E1 as <-; cbn [held]; constructor; auto; apply (iv_nodup _ _ I t _ Et)|apply (iv_nodup _ _ I t' _ E1)].
        + intros l' Hl. unfold upd in Hl. destruct (l' =? l); [discriminate|]. apply (iv_free _ _ I l' Hl).
        + intros t' th' l' E1 E2 E3. rewrite (nth_set _ _ _ _ _ Et) in E1. destruct (Nat.eqb_spec t' t) as [->|N]; [injection E1 as <-; discriminate|apply (iv_idle _ _ I t' th' l' E1 E2 E3)].
        + intros t' th' k' E1 E2. rewrite (nth_set _ _ _ _ _ Et) in E1. destruct (Nat.eqb_spec t' t) as [->|N]; [injection E1 as <-; apply (iv_todo _ _ I t _ k' Et E2)|apply (iv_todo _ _ I t' _ k' E1 E2)].
        + intros t' th' k' p' E1 E2. rewrite (nth_set _ _ _ _ _ Et) in E1. destruct (Nat.eqb_spec t' t) as [->|N]; [|apply (iv_work _ _ I t' th' k' p' E1 E2)].
          injection E1 as <-. injection E2 as <- <-. cbn [held]. split; auto. split; auto. intros g Hg. eapply same_res_trans; [|apply (Hw g); intros l' Hl'; apply Hg; now right].
          cbn [alone]. apply alone_ext. intros l'. destruct (Nat.eq_dec l' l) as [->|Nl'].
          * rewrite merge_in by now left. rewrite merge_out by auto. rewrite (Hg l) by now left. apply (iv_free _ _ I l El).
          * destruct (in_dec Nat.eq_dec l' h) as [Hin|Hin]; [rewrite !merge_in; auto; now right|rewrite !merge_out; auto]. intros [X|X]; auto.
        + apply (iv_reach _ _ I).
        + apply (iv_seq _ _ I).
        + apply (iv_log _ _ I).
      - (* an access *)
        destruct (iv_work _ _ I t _ k (Do l w p) Et eq_refl) as (Wk & (Ws1 & Ws2) & Hw). cbn [held] in *. destruct (Himpl k Wk) as (_ & Hk).
        destruct (w (store c l)) as [s|] eqn:Es.
        2:{ exfalso. pose proof (same_res_trans _ _ _ (Hw gs (fun _ _ => eq_refl)) (Hk gs (iv_reach _ _ I))) as H2. destruct (call_sim gs _ k (iv_seq _ _ I)) as (g' & E' & _). rewrite E' in H2.
            cbn [alone] in H2. rewrite merge_in in H2 by auto. rewrite Es in H2. exact H2. }
        eexists. exists gs. split; [reflexivity|].
        assert (No : forall t' th', nth_error (ths c) t' = Some th' -> t' <> t -> ~ In l (held th')) by (intros t' th' E1 N X; apply N; apply (iv_one _ _ I t' t th' _ l E1 Et X Ws1)).
        constructor; cbn [store locked ths log].
        + intros l' Hl. destruct (iv_lock _ _ I l' Hl) as (t' & th' & E1 & E2). destruct (Nat.eq_dec t' t) as [->|N].
          * rewrite Et in E1. injection E1 as <-. eexists t, _. rewrite (nth_set _ _ _ _ _ Et), Nat.eqb_refl. split; [reflexivity|]. exact E2.
          * exists t', th'. rewrite (nth_set _ _ _ _ _ Et). apply Nat.eqb_neq in N. now rewrite N.
        + intros t' th' l' E1 E2. rewrite (nth_set _ _ _ _ _ Et) in E1. destruct (Nat.eqb_spec t' t) as [->|N].
          * injection E1 as <-. apply (iv_held _ _ I t _ l' Et). exact E2.
          * apply (iv_held _ _ I t' th' l' E1 E2).
        + intros t1 t2 th1 th2 l' E1 E2 H3 H4. rewrite (nth_set _ _ _ _ _ Et) in E1. rewrite (nth_set _ _ _ _ _ Et) in E2. destruct (Nat.eqb_spec t1 t) as [->|N1], (Nat.eqb_spec t2 t) as [->|N2]; auto.
          * injection E1 as <-. apply (iv_one _ _ I t t2 _ th2 l' Et E2); auto.
          * injection E2 as <-. apply (iv_one _ _ I t1 t th1 _ l' E1 Et); auto.
          * apply (iv_one _ _ I t1 t2 th1 th2 l'); auto.
        + intros t' th' E1. rewrite (nth_set _ _ _ _ _ Et) in E1. destruct (Nat.eqb_spec t' t) as [->|N]; [injection E1 as <-; apply (iv_nodup _ _ I t _ Et)|apply (iv_nodup _ _ I t' _ E1)].
        + intros l' Hl. rewrite upd_neq; [apply (iv_free _ _ I l' Hl)|]. intros ->. apply (iv_held _ _ I t _ l Et) in Ws1. congruence.
        + intros t' th' l' E1 E2 E3. rewrite (nth_set _ _ _ _ _ Et) in E1. destruct (Nat.eqb_spec t' t) as [->|N]; [injection E1 as <-; discriminate|].
          rewrite upd_neq; [apply (iv_idle _ _ I t' th' l' E1 E2 E3)|]. intros ->. apply (No t' th' E1 N E3).
        + intros t' th' k' E1 E2. rewrite (nth_set _ _ _ _ _ Et) in E1. destruct (Nat.eqb_spec t' t) as [->|N]; [injection E1 as <-; apply (iv_todo _ _ I t _ k' Et E2)|apply (iv_todo _ _ I t' _ k' E1 E2)].
        + intros t' th' k' p' E1 E2. rewrite (nth_set _ _ _ _ _ Et) in E1. destruct (Nat.eqb_spec t' t) as [->|N].
          * injection E1 as <-. injection E2 as <- <-. cbn [held]. split; auto. split; auto. intros g Hg. eapply same_res_trans; [|apply (Hw g Hg)]. cbn [alone]. rewrite merge_in, Es by auto. apply alone_ext.
            intros l'. destruct (Nat.eq_dec l' l) as [->|Nl]; [rewrite upd_eq, merge_in, upd_eq; auto|]. rewrite (upd_neq _ _ l') by auto.
            destruct (in_dec Nat.eq_dec l' h) as [Hin|Hin]; [rewrite !merge_in, upd_neq; auto|rewrite !merge_out; auto].
          * destruct (iv_work _ _ I t' th' k' p' E1 E2) as (X1 & X2 & X3). split; auto. split; auto. intros g Hg. eapply same_res_trans; [|apply (X3 g Hg)]. apply alone_ext. intros l'.
            destruct (in_dec Nat.eq_dec l' (held th')) as [Hin|Hin]; [|rewrite !merge_out; auto]. rewrite !merge_in; auto. apply upd_neq. intros ->. apply (No t' th' E1 N Hin).
        + apply (iv_reach _ _ I).
        + apply (iv_seq _ _ I).
        + apply (iv_log _ _ I).
      - (* between two calls *)
        destruct h as [|l h].
        + destruct td as [|k td]; [exists c, gs; auto|]. eexists. exists gs. split; [reflexivity|].
          constructor; cbn [store locked ths log].
          * intros l' Hl. destruct (iv_lock _ _ I l' Hl) as (t' & th' & E1 & E2). destruct (Nat.eq_dec t' t) as [->|N]; [rewrite Et in E1; injection E1 as <-; destruct E2|].
            exists t', th'. rewrite (nth_set _ _ _ _ _ Et). apply Nat.eqb_neq in N. now rewrite N.
          * intros t' th' l' E1 E2. rewrite (nth_set _ _ _ _ _ Et) in E1. destruct (Nat.eqb_spec t' t) as [->|N]; [injection E1 as <-; destruct E2|apply (iv_held _ _ I t' th' l' E1 E2)].
          * intros t1 t2 th1 th2 l' E1 E2 H3 H4. rewrite (nth_set _ _ _ _ _ Et) in E1. rewrite (nth_set _ _ _ _ _ Et) in E2. destruct (Nat.eqb_spec t1 t) as [->|N1]; [injection E1 as <-; destruct H3|].
            destruct (Nat.eqb_spec t2 t) as [->|N2]; [injection E2 as <-; destruct H4|]. apply (iv_one _ _ I t1 t2 th1 th2 l'); auto.
          * intros t' th' E1. rewrite (nth_set _ _ _ _ _ Et) in E1. destruct (Nat.eqb_spec t' t) as [->|N]; [injection E1 as <-; constructor|apply (iv_nodup _ _ I t' _ E1)].
          * apply (iv_free _ _ I).
          * intros t' th' l' E1 E2 E3. rewrite (nth_set _ _ _ _ _ Et) in E1. destruct (Nat.eqb_spec t' t) as [->|N]; [injection E1 as <-; destruct E3|apply (iv_idle _ _ I t' th' l' E1 E2 E3)].
          * intros t' th' k' E1 E2. rewrite (nth_set _ _ _ _ _ Et) in E1. destruct (Nat.eqb_spec t' t) as [->|N]; [injection E1 as <-; apply (iv_todo _ _ I t _ k' Et); now right|apply (iv_todo _ _ I t' _ k' E1 E2)].
          * intros t' th' k' p' E1 E2. rewrite (nth_set _ _ _ _ _ Et) in E1. destruct (Nat.eqb_spec t' t) as [->|N]; [|apply (iv_work _ _ I t' th' k' p' E1 E2)].
            injection E1 as <-. injection E2 as <- <-. cbn [held]. assert (Wk : well_locked k = true) by (apply (iv_todo _ _ I t _ k Et); now left). split; auto. split; [apply (Himpl k Wk)|].
            intros g _. apply alone_ext. intros l'. now apply merge_out.
          * apply (iv_reach _ _ I).
          * apply (iv_seq _ _ I).
          * apply (iv_log _ _ I).
        + eexists. exists gs. split; [reflexivity|].
          assert (Hl0 : store c l = gs l) by (apply (iv_idle _ _ I t _ l Et eq_refl); now left).
          pose proof (iv_nodup _ _ I t _ Et) as N0. cbn [held] in N0. apply NoDup_cons_iff in N0 as (N0 & N1).
          assert (No : forall t' th', nth_error (ths c) t' = Some th' -> t' <> t -> ~ In l (held th')) by (intros t' th' E1 N X; apply N; apply (iv_one _ _ I t' t th' _ l E1 Et X); now left).
          constructor; cbn [store locked ths log].
          * intros l' Hl. unfold upd in Hl. destruct (Nat.eqb_spec l' l) as [El|Nl]; [discriminate|]. destruct (iv_lock _ _ I l' Hl) as (t' & th' & E1 & E2). destruct (Nat.eq_dec t' t) as [->|N].
            -- rewrite Et in E1. injection E1 as <-. eexists t, _. rewrite (nth_set _ _ _ _ _ Et), Nat.eqb_refl. split; [reflexivity|]. destruct E2 as [E2|E2]; [congruence|exact E2].
            -- exists t', th'. rewrite (nth_set _ _ _ _ _ Et). apply Nat.eqb_neq in N. now rewrite N.
          * intros t' th' l' E1 E2. rewrite (nth_set _ _ _ _ _ Et) in E1. destruct (Nat.eqb_spec t' t) as [->|N].
            -- injection E1 as <-. cbn [held] in E2. rewrite upd_neq by (intros ->; contradiction). apply (iv_held _ _ I t _ l' Et). now right.
            -- rewrite upd_neq; [apply (iv_held _ _ I t' th' l' E1 E2)|]. intros ->. apply (No t' th' E1 N E2).
          * intros t1 t2 th1 th2 l' E1 E2 H3 H4. rewrite (nth_set _ _ _ _ _ Et) in E1. rewrite (nth_set _ _ _ _ _ Et) in E2. destruct (Nat.eqb_spec t1 t) as [->|N2], (Nat.eqb_spec t2 t) as [->|N3]; auto.
            -- injection E1 as <-. apply (iv_one _ _ I t t2 _ th2 l' Et E2); auto. now right.
            -- injection E2 as <-. apply (iv_one _ _ I t1 t th1 _ l' E1 Et); auto. now right.
            -- apply (iv_one _ _ I t1 t2 th1 th2 l'); auto.
          * intros t' th' E1. rewrite (nth_set _ _ _ _ _ Et) in E1. destruct (Nat.eqb_spec t' t) as [->|N]; [injection E1 as <-; exact N1|apply (iv_nodup _ _ I t' _ E1)].
          * intros l' Hl. destruct (Nat.eq_dec l' l) as [->|Nl]; auto. rewrite upd_neq in Hl by auto. apply (iv_free _ _ I l' Hl).
          * intros t' th' l' E1 E2 E3. rewrite (nth_set _ _ _ _ _ Et) in E1. destruct (Nat.eqb_spec t' t) as [->|N]; [injection E1 as <-; apply (iv_idle _ _ I t _ l' Et eq_refl); now right|apply (iv_idle _ _ I t' th' l' E1 E2 E3)].
          * intros t' th' k' E1 E2. rewrite (nth_set _ _ _ _ _ Et) in E1. destruct (Nat.eqb_spec t' t) as [->|N]; [injection E1 as <-; apply (iv_todo _ _ I t _ k' Et E2)|apply (iv_todo _ _ I t' _ k' E1 E2)].
          * intros t' th' k' p' E1 E2. rewrite (nth_set _ _ _ _ _ Et) in E1. destruct (Nat.eqb_spec t' t) as [->|N]; [injection E1 as <-; discriminate|apply (iv_work _ _ I t' th' k' p' E1 E2)].
          * apply (iv_reach _ _ I).
          * apply (iv_seq _ _ I).
          * apply (iv_log _ _ I).
    Qed.
    Lemma inv_start g calls : (forall l, reachable (g l)) -> relg g m0 -> (forall cs k, In cs calls -> In k cs -> well_locked k = true) -> Inv (start g calls) g.
    Proof.
      intros Hr Hg Hcs. assert (X : forall t th, nth_error (ths (start g calls)) t = Some th -> exists cs, In cs calls /\ th = Th cs None []).
      { intros t th E. cbn [start ths] in E. apply nth_error_In in E. apply in_map_iff in E as (cs & <- & E). eauto. }
      constructor; cbn [start store locked log].
      - discriminate.
      - intros t th l E H. destruct (X t th E) as (cs & _ & ->). destruct H.
      - intros t t' th th' l E _ H. destruct (X t th E) as (cs & _ & ->). destruct H.
      - intros t th E. destruct (X t th E) as (cs & _ & ->). constructor.
      - auto.
      - auto.
      - intros t th k E H. destruct (X t th E) as (cs & Hin & ->). now apply (Hcs cs).
      - intros t th k p E H. destruct (X t th E) as (cs & _ & ->). discriminate.
      - exact Hr.
      - exact Hg.
      - reflexivity.
    Qed.
    Lemma inv_runs sched : forall c gs, Inv c gs -> exists c' gs', cruns impl c sched = Some c' /\ Inv c' gs'.
    Proof.
      induction sched as [|t sched IH]; intros c gs I; cbn [cruns]; [eauto|]. destruct (inv_step c gs t I) as (c1 & gs1 & -> & I1). apply (IH _ _ I1).
    Qed.
  End Atomic.

  (** ** Every goroutine's calls are logged in its own order *)
  Definition mine (t : nat) (lg : list (nat * call K V * answer K V)) : list (call K V) := map (fun x => snd (fst x)) (filter (fun x => fst (fst x) =? t) lg).
  Definition ahead (th : thread K V) : list (call K V) := match work th with Some (k, _) => [k] | None => [] end ++ todo th.
  Lemma order_step impl c c' t : cstep impl c t = Some c' -> forall t' th', nth_error (ths c') t' = Some th' ->
    exists th, nth_error (ths c) t' = Some th /\ mine t' (log c') ++ ahead th' = mine t' (log c) ++ ahead th.
  Proof.
    intros E t' th' E'. unfold cstep in E. destruct (nth_error (ths c) t) as [[td wk h]|] eqn:Et; [|injection E as <-; eauto].
    destruct wk as [[k [r|l p|l w p]]|].
    - injection E as <-. cbn [ths log] in *. rewrite (nth_set _ _ _ _ _ Et) in E'. unfold mine. rewrite filter_app, map_app. cbn [filter fst]. destruct (Nat.eqb_spec t' t) as [->|N].
      + injection E' as <-. eexists. split; [exact Et|]. rewrite Nat.eqb_refl. cbn. now rewrite <- app_assoc.
      + exists th'. split; auto. replace (t =? t') with false by (symmetry; apply Nat.eqb_neq; auto). cbn. now rewrite app_nil_r.
    - destruct (locked c l); injection E as <-; [eauto|]. cbn [ths log] in *. rewrite (nth_set _ _ _ _ _ Et) in E'. destruct (Nat.eqb_spec t' t) as [->|N]; [injection E' as <-; eexists; split; [exact Et|reflexivity]|eauto].
    - destruct (w (store c l)); [|discriminate]. injection E as <-. cbn [ths log] in *. rewrite (nth_set _ _ _ _ _ Et) in E'. destruct (Nat.eqb_spec t' t) as [->|N]; [injection E' as <-; eexists; split; [exact Et|reflexivity]|eauto].
    - destruct h as [|l h]; [destruct td as [|k td]|]; injection E as <-; [eauto| |]; cbn [ths log] in *; rewrite (nth_set _ _ _ _ _ Et) in E'; (destruct (Nat.eqb_spec t' t) as [->|N]; [injection E' as <-; eexists; split; [exact Et|reflexivity]|eauto]).
  Qed.
  Lemma order_runs impl sched : forall c c', cruns impl c sched = Some c' -> forall t th', nth_error (ths c') t = Some th' ->
    exists th, nth_error (ths c) t = Some th /\ mine t (log c') ++ ahead th' = mine t (log c) ++ ahead th.
  Proof.
    induction sched as [|t0 sched IH]; intros c c' E t th' E'; cbn [cruns] in E; [injection E as <-; eauto|]. destruct (cstep impl c t0) as [c1|] eqn:E1; [|discriminate].
    destruct (IH c1 c' E t th' E') as (th1 & X1 & X2). destruct (order_step impl c c1 t0 E1 t th1 X1) as (th & Y1 & Y2). exists th. split; auto. congruence.
  Qed.
  Lemma order_start impl g calls sched c t th : cruns impl (start g calls) sched = Some c -> nth_error (ths c) t = Some th -> nth_error calls t = Some (mine t (log c) ++ ahead th).
  Proof.
    intros E E'. destruct (order_runs impl sched _ _ E t th E') as (th0 & X1 & ->). cbn [start ths log] in *. rewrite nth_error_map in X1. destruct (nth_error calls t); [|discriminate]. injection X1 as <-. reflexivity.
  Qed.
  (** ** Deadlock *)
  Section Order.
    Context (impl : call K V -> prog K V) (rank : nat -> nat).
    (** every lock has a higher rank than those held *)
    Fixpoint ordered (h : list nat) p : Prop :=
      match p with
      | Ret _ => True
      | Lock l p' => (forall x, In x h -> rank x < rank l) /\ ordered (l :: h) p'
      | Do _ _ k => forall s, ordered h (k s)
      end.
    Record LInv c : Prop := {
      li_lock : forall l, locked c l = true -> exists t th, nth_error (ths c) t = Some th /\ In l (held th);
      li_held : forall t th l, nth_error (ths c) t = Some th -> In l (held th) -> locked c l = true;
      li_one : forall t t' th th' l, nth_error (ths c) t = Some th -> nth_error (ths c) t' = Some th' -> In l (held th) -> In l (held th') -> t = t';
      li_todo : forall t th k, nth_error (ths c) t = Some th -> In k (todo th) -> ordered [] (impl k);
      li_work : forall t th k p, nth_error (ths c) t = Some th -> work th = Some (k, p) -> ordered (held th) p;
      li_nodup : forall t th, nth_error (ths c) t = Some th -> NoDup (held th) }.
    (** what a step may do to its goroutine *)
    Inductive local : thread K V -> thread K V -> Prop :=
    | lc_ret td k r h : local (Th td (Some (k, Ret r)) h) (Th td None h)
    | lc_lock td k l p h : local (Th td (Some (k, Lock l p)) h) (Th td (Some (k, p)) (l :: h))
    | lc_do td k l w (p : skiplist K V -> prog K V) h s : local (Th td (Some (k, Do l w p)) h) (Th td (Some (k, p s)) h)
    | lc_unlock td l h : local (Th td None (l :: h)) (Th td None h)
    | lc_call td k : local (Th (k :: td) None []) (Th td (Some (k, impl k)) []).
    Lemma step_local c t c' : cstep impl c t = Some c' -> (can c t = false /\ c' = c) \/
      exists th th', nth_error (ths c) t = Some th /\ ths c' = list_set (ths c) t th' /\ local th th' /\
        (forall l, locked c' l = match work th with Some (_, Lock l0 _) => if l =? l0 then true else locked c l
                                 | None => match held th with l0 :: _ => if l =? l0 then false else locked c l | [] => locked c l end
                                 | _ => locked c l end) /\ (forall k l p, work th = Some (k, Lock l p) -> locked c l = false).
    Proof.
      unfold cstep, can. destruct (nth_error (ths c) t) as [[td wk h]|] eqn:Et; [|intros E; injection E as <-; left; auto].
      destruct wk as [[k [r|l p|l w p]]|].
      - intros E. injection E as <-. right. eexists _, _. split; [reflexivity|]. split; [reflexivity|]. split; [constructor|]. split; [auto|discriminate].
      - destruct (locked c l) eqn:El; intros E; injection E as <-; [left; destruct td; auto|]. right. eexists _, _. split; [reflexivity|]. split; [reflexivity|]. split; [constructor|]. split; [auto|].
        intros k' l' p' X. injection X as <- <- <-. auto.
      - destruct (w (store c l)); [|discriminate]. intros E. injection E as <-. right. eexists _, _. split; [reflexivity|]. split; [reflexivity|]. split; [constructor|]. split; [auto|discriminate].
      - destruct h as [|l h]; [destruct td as [|k td]|]; intros E; injection E as <-; [left; auto| |]; right; (eexists _, _; split; [reflexivity|]; split; [reflexivity|]; split; [constructor|]; split; [auto|discriminate]).
    Qed.
    Lemma linv_step c t c' : LInv c -> cstep impl c t = Some c' -> LInv c'.
    Proof.
      intros I E. destruct (step_local c t c' E) as [(_ & ->)|(th & th' & Et & Es & Hl & Hk & Hf)]; auto. destruct I as [I1 I2 I3 I4 I5 I6].
      assert (G : forall t' x, nth_error (ths c') t' = Some x -> (t' = t /\ x = th') \/ (t' <> t /\ nth_error (ths c) t' = Some x)).
      { intros t' x X. rewrite Es, (nth_set _ _ _ _ _ Et) in X. destruct (Nat.eqb_spec t' t) as [->|N]; [injection X as <-; auto|auto]. }
      assert (G2 : nth_error (ths c') t = Some th') by (rewrite Es, (nth_set _ _ _ _ _ Et), Nat.eqb_refl; auto).
      assert (G3 : forall t' x, t' <> t -> nth_error (ths c) t' = Some x -> nth_error (ths c') t' = Some x).
      { intros t' x N X. rewrite Es, (nth_set _ _ _ _ _ Et). apply Nat.eqb_neq in N. now rewrite N. }
      assert (Keep : forall x, (In x (held th') -> In x (held th)) -> forall t' y, nth_error (ths c) t' = Some y -> In x (held th') -> In x (held y) -> t' = t).
      { intros x Hx t' y X1 X2 X3. apply (I3 t' t y th x X1 Et X3). auto. }
      destruct Hl as [td k r h|td k l p h|td k l w p h s|td l h|td k]; cbn [work held] in *.
      - constructor.
        + intros l Hl. rewrite Hk in Hl. destruct (I1 l Hl) as (t' & x & X1 & X2). destruct (Nat.eq_dec t' t) as [->|N]; [rewrite Et in X1; injection X1 as <-; eauto|eauto].
        + intros t' x l X1 X2. rewrite Hk. destruct (G t' x X1) as [(-> & ->)|(N & X)]; [apply (I2 t _ l Et X2)|apply (I2 t' x l X X2)].
        + intros t1 t2 x1 x2 l X1 X2 Y1 Y2. destruct (G t1 x1 X1) as [(-> & ->)|(N1 & Z1)], (G t2 x2 X2) as [(-> & ->)|(N2 & Z2)]; auto; [apply (I3 t t2 _ x2 l Et Z2 Y1 Y2)|apply (I3 t1 t x1 _ l Z1 Et Y1 Y2)|apply (I3 t1 t2 x1 x2 l); auto].
        + intros t' x k' X1 X2. destruct (G t' x X1) as [(-> & ->)|(N & X)]; [apply (I4 t _ k' Et X2)|apply (I4 t' x k' X X2)].
        + intros t' x k' p' X1 X2. destruct (G t' x X1) as [(-> & ->)|(N & X)]; [discriminate|apply (I5 t' x k' p' X X2)].
        + intros t' x X1. destruct (G t' x X1) as [(-> & ->)|(N & X)]; [apply (I6 t _ Et)|apply (I6 t' x X)].
      - specialize (Hf k l p eq_refl). assert (Nl : forall t' x, nth_error (ths c) t' = Some x -> ~ In l (held x)) by (intros t' x X1 X2; apply (I2 t' x l X1) in X2; congruence).
        constructor.
        + intros l' Hl. rewrite Hk in Hl. destruct (Nat.eqb_spec l' l) as [El|Nl']; [exists t; eexists; split; [exact G2|left; auto]|]. destruct (I1 l' Hl) as (t' & x & X1 & X2).
          destruct (Nat.eq_dec t' t) as [->|N]; [rewrite Et in X1; injection X1 as <-; exists t; eexists; split; [exact G2|right; auto]|eauto].
        + intros t' x l' X1 X2. rewrite Hk. destruct (Nat.eqb_spec l' l) as [El|Nl']; auto. destruct (G t' x X1) as [(-> & ->)|(N & X)]; [destruct X2 as [X2|X2]; [congruence|apply (I2 t _ l' Et X2)]|apply (I2 t' x l' X X2)].
        + intros t1 t2 x1 x2 l' X1 X2 Y1 Y2. destruct (G t1 x1 X1) as [(-> & ->)|(N1 & Z1)], (G t2 x2 X2) as [(-> & ->)|(N2 & Z2)]; auto.
          * destruct Y1 as [<-|Y1]; [destruct (Nl t2 x2 Z2 Y2)|]. apply (I3 t t2 _ x2 l' Et Z2 Y1 Y2).
          * destruct Y2 as [<-|Y2]; [destruct (Nl t1 x1 Z1 Y1)|]. apply (I3 t1 t x1 _ l' Z1 Et Y1 Y2).
          * apply (I3 t1 t2 x1 x2 l'); auto.
        + intros t' x k' X1 X2. destruct (G t' x X1) as [(-> & ->)|(N & X)]; [apply (I4 t _ k' Et X2)|apply (I4 t' x k' X X2)].
        + intros t' x k' p' X1 X2. destruct (G t' x X1) as [(-> & ->)|(N & X)]; [|apply (I5 t' x k' p' X X2)]. injection X2 as <- <-. apply (I5 t _ k (Lock l p) Et eq_refl).
        + intros t' x X1. destruct (G t' x X1) as [(-> & ->)|(N & X)]; [|apply (I6 t' x X)]. constructor; [apply (Nl t _ Et)|apply (I6 t _ Et)].
      - constructor.
        + intros l' Hl. rewrite Hk in Hl. destruct (I1 l' Hl) as (t' & x & X1 & X2). destruct (Nat.eq_dec t' t) as [->|N]; [rewrite Et in X1; injection X1 as <-; eauto|eauto].
        + intros t' x l' X1 X2. rewrite Hk. destruct (G t' x X1) as [(-> & ->)|(N & X)]; [apply (I2 t _ l' Et X2)|apply (I2 t' x l' X X2)].
        + intros t1 t2 x1 x2 l' X1 X2 Y1 Y2. destruct (G t1 x1 X1) as [(-> & ->)|(N1 & Z1)], (G t2 x2 X2) as [(-> & ->)|(N2 & Z2)]; auto; [apply (I3 t t2 _ x2 l' Et Z2 Y1 Y2)|apply (I3 t1 t x1 _ l' Z1 Et Y1 Y2)|apply (I3 t1 t2 x1 x2 l'); auto].
        + intros t' x k' X1 X2. destruct (G t' x X1) as [(-> & ->)|(N & X)]; [apply (I4 t _ k' Et X2)|apply (I4 t' x k' X X2)].
        + intros t' x k' p' X1 X2. destruct (G t' x X1) as [(-> & ->)|(N & X)]; [|apply (I5 t' x k' p' X X2)]. injection X2 as <- <-. apply (I5 t _ k (Do l w p) Et eq_refl).
        + intros t' x X1. destruct (G t' x X1) as [(-> & ->)|(N & X)]; [apply (I6 t _ Et)|apply (I6 t' x X)].
      - pose proof (I6 t _ Et) as N0. cbn [held] in N0. apply NoDup_cons_iff in N0 as (N0 & N1). constructor.
        + intros l' Hl. rewrite Hk in Hl. destruct (Nat.eqb_spec l' l) as [El|Nl]; [discriminate|]. destruct (I1 l' Hl) as (t' & x & X1 & X2).
          destruct (Nat.eq_dec t' t) as [->|N]; [rewrite Et in X1; injection X1 as <-; exists t; eexists; split; [exact G2|destruct X2 as [X2|X2]; [congruence|exact X2]]|eauto].
        + intros t' x l' X1 X2. rewrite Hk. destruct (G t' x X1) as [(-> & ->)|(N & X)].
          * destruct (Nat.eqb_spec l' l) as [El|Nl]; [exfalso; apply N0; rewrite <- El; exact X2|]. apply (I2 t _ l' Et). now right.
          * destruct (Nat.eqb_spec l' l) as [El|Nl]; [exfalso; apply N; rewrite El in X2; apply (I3 t' t x _ l X Et X2); now left|]. apply (I2 t' x l' X X2).
        + intros t1 t2 x1 x2 l' X1 X2 Y1 Y2. destruct (G t1 x1 X1) as [(-> & ->)|(N2 & Z1)], (G t2 x2 X2) as [(-> & ->)|(N3 & Z2)]; auto; [apply (I3 t t2 _ x2 l' Et Z2); [now right|auto]|apply (I3 t1 t x1 _ l' Z1 Et); [auto|now right]|apply (I3 t1 t2 x1 x2 l'); auto].
        + intros t' x k' X1 X2. destruct (G t' x X1) as [(-> & ->)|(N & X)]; [apply (I4 t _ k' Et X2)|apply (I4 t' x k' X X2)].
        + intros t' x k' p' X1 X2. destruct (G t' x X1) as [(-> & ->)|(N & X)]; [discriminate|apply (I5 t' x k' p' X X2)].
        + intros t' x X1. destruct (G t' x X1) as [(-> & ->)|(N & X)]; [exact N1|apply (I6 t' x X)].
      - constructor.
        + intros l' Hl. rewrite Hk in Hl. destruct (I1 l' Hl) as (t' & x & X1 & X2). destruct (Nat.eq_dec t' t) as [->|N]; [rewrite Et in X1; injection X1 as <-; destruct X2|eauto].
        + intros t' x l' X1 X2. rewrite Hk. destruct (G t' x X1) as [(-> & ->)|(N & X)]; [destruct X2|apply (I2 t' x l' X X2)].
        + intros t1 t2 x1 x2 l' X1 X2 Y1 Y2. destruct (G t1 x1 X1) as [(-> & ->)|(N1 & Z1)]; [destruct Y1|]. destruct (G t2 x2 X2) as [(-> & ->)|(N2 & Z2)]; [destruct Y2|]. apply (I3 t1 t2 x1 x2 l'); auto.
        + intros t' x k' X1 X2. destruct (G t' x X1) as [(-> & ->)|(N & X)]; [apply (I4 t _ k' Et); now right|apply (I4 t' x k' X X2)].
        + intros t' x k' p' X1 X2. destruct (G t' x X1) as [(-> & ->)|(N & X)]; [|apply (I5 t' x k' p' X X2)]. injection X2 as <- <-. apply (I4 t _ k Et). now left.
        + intros t' x X1. destruct (G t' x X1) as [(-> & ->)|(N & X)]; [constructor|apply (I6 t' x X)].
    Qed.
    Lemma linv_start g calls : (forall cs k, In cs calls -> In k cs -> ordered [] (impl k)) -> LInv (start g calls).
    Proof.
      intros Hcs. assert (X : forall t th, nth_error (ths (start g calls)) t = Some th -> exists cs, In cs calls /\ th = Th cs None []).
      { intros t th E. cbn [start ths] in E. apply nth_error_In in E. apply in_map_iff in E as (cs & <- & E). eauto. }
      constructor; cbn [start locked].
      - discriminate.
      - intros t th l E H. destruct (X t th E) as (cs & _ & ->). destruct H.
      - intros t t' th th' l E _ H. destruct (X t th E) as (cs & _ & ->). destruct H.
      - intros t th k E H. destruct (X t th E) as (cs & Hin & ->). now apply (Hcs cs).
      - intros t th k p E H. destruct (X t th E) as (cs & _ & ->). discriminate.
      - intros t th E. destruct (X t th E) as (cs & _ & ->). constructor.
    Qed.
    Lemma linv_runs sched : forall c c', LInv c -> cruns impl c sched = Some c' -> LInv c'.
    Proof.
      induction sched as [|t sched IH]; intros c c' I E; cbn [cruns] in E; [now injection E as <-|]. destruct (cstep impl c t) as [c1|] eqn:E1; [|discriminate].
      apply (IH c1); auto. eapply linv_step; eauto.
    Qed.

    Definition awaited th : nat := match work th with Some (_, Lock l _) => rank l | _ => 0 end.
    Lemma stuck_waits c t th : (forall t, can c t = false) -> nth_error (ths c) t = Some th -> over th = false ->
      exists k l p, work th = Some (k, Lock l p) /\ locked c l = true.
    Proof.
      intros H E O. specialize (H t). unfold can in H. rewrite E in H. destruct th as [td wk h]. cbn [work].
      destruct wk as [[k [r|l p|l w p]]|].
      - destruct td; discriminate.
      - exists k, l, p. split; auto. apply negb_false_iff. destruct td; exact H.
      - destruct td; discriminate.
      - destruct td; [destruct h|]; discriminate.
    Qed.
    Lemma waits_higher c : LInv c -> (forall t, can c t = false) -> forall n t th, nth_error (ths c) t = Some th -> over th = false ->
      exists t' th', nth_error (ths c) t' = Some th' /\ n <= awaited th'.
    Proof.
      intros I H. induction n as [|n IH]; intros t th E O; [exists t, th; split; auto; lia|].
      destruct (IH t th E O) as (t1 & th1 & E1 & N1). destruct (over th1) eqn:O1.
      - (* nobody that is over waits *) destruct th1 as [[|] [|] [|]]; try discriminate. cbn in N1. assert (n = 0) by lia. subst n.
        destruct (stuck_waits c t th H E O) as (k & l & p & X1 & X2). destruct (li_lock c I l X2) as (t2 & th2 & E2 & Y2).
        assert (O2 : over th2 = false) by (destruct th2 as [[|] [|] [|]]; auto; destruct Y2).
        destruct (stuck_waits c t2 th2 H E2 O2) as (k2 & l2 & p2 & Z1 & Z2). exists t2, th2. split; auto. pose proof (li_work c I t2 th2 k2 _ E2 Z1) as Od. cbn [ordered] in Od.
        destruct Od as (Od & _). specialize (Od l Y2). unfold awaited. rewrite Z1. lia.
      - destruct (stuck_waits c t1 th1 H E1 O1) as (k & l & p & X1 & X2). destruct (li_lock c I l X2) as (t2 & th2 & E2 & Y2).
        assert (O2 : over th2 = false) by (destruct th2 as [[|] [|] [|]]; auto; destruct Y2).
        destruct (stuck_waits c t2 th2 H E2 O2) as (k2 & l2 & p2 & Z1 & Z2). exists t2, th2. split; auto. pose proof (li_work c I t2 th2 k2 _ E2 Z1) as Od. cbn [ordered] in Od.
        destruct Od as (Od & _). specialize (Od l Y2). unfold awaited in *. rewrite Z1. rewrite X1 in N1. lia.
    Qed.
    Lemma never_stuck c : LInv c -> (forall t, can c t = false) -> forallb over (ths c) = true.
    Proof.
      intros I H. apply forallb_forall. intros th Hin. destruct (over th) eqn:O; auto. exfalso. apply In_nth_error in Hin as (t & E).
      destruct (waits_higher c I H (S (list_max (map awaited (ths c)))) t th E O) as (t' & th' & E' & N).
      assert (X : Forall (fun x => x <= list_max (map awaited (ths c))) (map awaited (ths c))) by (apply list_max_le; auto).
      rewrite Forall_forall in X. specialize (X (awaited th') (in_map _ _ _ (nth_error_In _ _ E'))). lia.
    Qed.

    (** no goroutine can go on for ever *)
    Lemma local_acc th : Acc (fun y x => local x y) th.
    Proof.
      destruct th as [td wk h].
      assert (A : forall td, (forall h k p, Acc (fun y x => local x y) (Th td (Some (k, p)) h)) /\ (forall h, Acc (fun y x => local x y) (Th td None h))).
      { clear. induction td as [|k0 td (IHs & IHn)].
        - assert (N : forall h, Acc (fun y x => local x y) (Th [] None h)).
          { induction h as [|l h IH]; constructor; intros y Hy; inversion Hy; subst; auto. }
          split; auto. intros h k p. revert h. induction p as [r|l p IH|l w p IH]; intros h; constructor; intros y Hy; inversion Hy; subst; auto.
        - assert (N : forall h, Acc (fun y x => local x y) (Th (k0 :: td) None h)).
          { induction h as [|l h IH]; constructor; intros y Hy; inversion Hy; subst; auto. }
          split; auto. intros h k p. revert h. induction p as [r|l p IH|l w p IH]; intros h; constructor; intros y Hy; inversion Hy; subst; auto. }
      destruct (A td). destruct wk as [[]|]; auto.
    Qed.
    Definition locals (ys xs : list (thread K V)) : Prop := exists t x y, nth_error xs t = Some x /\ ys = list_set xs t y /\ local x y.
    Lemma locals_acc xs : Acc locals xs.
    Proof.
      induction xs as [|x xs IH].
      - constructor. intros ys (t & x & y & E & _). destruct t; discriminate.
      - revert x. induction IH as [xs _ IHx]. intros x. induction (local_acc x) as [x _ IHl]. constructor. intros ys (t & a & b & E & -> & L). destruct t as [|t]; cbn in *.
        + injection E as <-. apply IHl. exact L.
        + apply IHx. exists t, a, b. auto.
    Qed.
    Lemma ends (f : nat -> conf K V) : ~ (forall n, exists t, can (f n) t = true /\ cstep impl (f n) t = Some (f (S n))).
    Proof.
      intros H. assert (X : forall xs, Acc locals xs -> forall n, ths (f n) = xs -> False); [|apply (X (ths (f 0)) (locals_acc _) 0 eq_refl)].
      induction 1 as [xs _ IH]. intros n E. destruct (H n) as (t & Hc1 & Hs). destruct (step_local _ _ _ Hs) as [(C & _)|(th & th' & E1 & E2 & L & _)]; [congruence|].
      apply (IH (ths (f (S n)))) with (n := S n); auto. exists t, th, th'. rewrite E in *. auto.
    Qed.
  End Order.

  (** ** The coarse programs *)
  Lemma read_strict {T} h l (f : skiplist K V -> option T) k : In l h -> (forall x, strict h (k x)) -> strict h (read l f k).
  Proof. intros H1 H2. split; auto. intros s. destruct (f s); cbn; auto. Qed.
  Lemma meetLoop_strict b es : forall h res, In b h -> strict h (meetLoop cmp b es res).
  Proof. induction es as [|e es IH]; intros h res Hb; cbn [meetLoop]; [exact Logic.I|]. apply read_strict; auto. Qed.
  Lemma coarse_strict k : well_locked k = true -> strict [] (coarse cmp k).
  Proof.
    destruct k as [l o|a b rs|a b rs|a b rs]; intros H; [|cbn; split; [auto|]; intros s; destruct (slice s); [apply meetLoop_strict; now left|exact Logic.I]|cbn; split; [auto|]; intros s; destruct (slice s); cbn; [split; [auto|]; intros s'; destruct (slice s'); exact Logic.I|exact Logic.I]|discriminate].
    destruct o; try discriminate; cbn; auto.
  Qed.
  Lemma upd_same {T} (g : nat -> T) l : forall l', upd g l (g l) l' = g l'. Proof. intros l'. unfold upd. destruct (Nat.eqb_spec l' l); congruence. Qed.
  Lemma read_alone {T} l (f : skiplist K V -> option T) k x g : f (g l) = Some x -> same_res (alone (read l f k) g) (alone (k x) g).
  Proof. intros H. unfold read. cbn [alone]. rewrite H. apply alone_ext. apply upd_same. Qed.
  Lemma method_alone l o g : same_res (alone (method cmp l o) g) (call_alone cmp g (On l o)).
  Proof. cbn. destruct (sk_step cmp (g l) o) as [[s r]|]; cbn; auto. Qed.
  Lemma meetLoop_alone b ms es g : relg g ms -> forall res, same_res (alone (meetLoop cmp b es res) g) (Some (g, Made (res ++ both ltb es (ms b)))).
  Proof.
    intros H. induction es as [|e es IH]; intros res; cbn [meetLoop]; [cbn; rewrite app_nil_r; auto|].
    eapply same_res_trans; [apply read_alone; apply (search_ok ltb W cmp Hc _ _ (fst e) (H b))|]. eapply same_res_trans; [apply IH|].
    unfold both. cbn [flat_map]. destruct (sames ltb (fst e) (ms b)) as [|[k' v'] r]; cbn; [auto|]. now rewrite <- app_assoc.
  Qed.
  Lemma minusLoop_alone b ms es g : relg g ms -> forall res, same_res (alone (minusLoop cmp b es res) g) (Some (g, Made (res ++ only ltb es (ms b)))).
  Proof.
    intros H. induction es as [|e es IH]; intros res; cbn [minusLoop]; [cbn; rewrite app_nil_r; auto|].
    eapply same_res_trans; [apply read_alone; apply (search_ok ltb W cmp Hc _ _ (fst e) (H b))|]. eapply same_res_trans; [apply IH|].
    unfold only. cbn [filter]. unfold has at 2. destruct (sames ltb (fst e) (ms b)) as [|[k' v'] r]; cbn; [now rewrite <- app_assoc|auto].
  Qed.
  (** without interruption the coarse programs do what SkipModel.v says *)
  Lemma coarse_alone k g : (forall l, reachable (g l)) -> same_res (alone (coarse cmp k) g) (call_alone cmp g k).
  Proof.
    intros Hr. pose proof (reachable_relg g Hr) as H. set (ms := fun l => entries_of (g l)) in *. clearbody ms. destruct (call_sim g ms k H) as (g' & E' & _).
    destruct k as [l o|a b rs|a b rs|a b rs]; cbn [coarse].
    - destruct o; try apply method_alone.
      (* RemoveHead *) clear E' g'. unfold removeHead_. eapply same_res_trans; [apply read_alone; reflexivity|]. cbn [call_alone sk_step]. unfold removeHead.
      destruct (Z.eqb_spec (size (g l)) 0) as [Hz|Hz]; [cbn; split; auto; intros; symmetry; apply upd_same|].
      destruct (getf (mem (g l)) (header (g l)) 0) as [[b|]|] eqn:E1; [|unfold read; cbn; rewrite E1; exact Logic.I|unfold read; cbn; rewrite E1; exact Logic.I].
      destruct (entry (mem (g l)) b) as [e|] eqn:E2; [|unfold read; cbn; rewrite E1, E2; exact Logic.I].
      eapply same_res_trans; [apply read_alone; rewrite E1; exact E2|]. cbn. destruct (remove cmp (g l) (fst e)) as [[s r]|]; cbn; auto.
    - rewrite E'. cbn [call_spec snd]. cbn [alone meet_]. eapply same_res_trans; [apply read_alone; apply (slice_ok ltb _ _ (H a))|]. eapply same_res_trans; [apply (meetLoop_alone b ms _ _ H)|].
      cbn [call_alone] in E'. destruct (Intersection _ _ _ _); [|discriminate]. destruct (slice _); [|discriminate]. injection E' as <- _. cbn. auto.
    - cbn [alone join_ call_alone]. unfold UnionSets. rewrite (slice_ok ltb _ _ (H a)). eapply same_res_trans; [apply read_alone; apply (slice_ok ltb _ _ (H a))|]. cbn [alone].
      eapply same_res_trans; [apply read_alone; apply (slice_ok ltb _ _ (H b))|]. rewrite (slice_ok ltb _ _ (H b)).
      destruct (putAll_ok ltb W cmp Hc (ms a) New [] rs (new_rel ltb 16)) as (s1 & rs1 & -> & H1). destruct (putAll_ok ltb W cmp Hc (ms b) s1 _ rs1 H1) as (s2 & rs2 & -> & H2).
      rewrite (slice_ok ltb _ _ H2). cbn. auto.
    - rewrite E'. cbn [call_spec snd]. cbn [alone minus_]. eapply same_res_trans; [apply read_alone; apply (slice_ok ltb _ _ (H a))|]. eapply same_res_trans; [apply (minusLoop_alone b ms _ _ H)|].
      cbn [call_alone] in E'. destruct (DifferenceSets _ _ _ _); [|discriminate]. destruct (slice _); [|discriminate]. injection E' as <- _. cbn. auto.
  Qed.
  (** and take their locks in this order *)
  Definition upwards (rank : nat -> nat) (k : call K V) : Prop := match k with Meet a b _ | Join a b _ => rank a < rank b | _ => True end.
  Lemma read_ordered {T} rank h l (f : skiplist K V -> option T) k : (forall x, ordered rank h (k x)) -> ordered rank h (read l f k).
  Proof. intros H s. cbn. destruct (f s); cbn; auto. Qed.
  Lemma coarse_ordered rank k : upwards rank k -> ordered rank [] (coarse cmp k).
  Proof.
    destruct k as [l o|a b rs|a b rs|a b rs]; cbn [upwards coarse]; intros H.
    - assert (M : forall o, ordered rank [] (method cmp l o)) by (intros o'; cbn; split; [intros ? []|auto]). destruct o; try apply M.
      unfold removeHead_. apply read_ordered. intros n. destruct (n =? 0)%Z; [exact Logic.I|]. apply read_ordered. intros e. apply M.
    - cbn [meet_ ordered]. split; [intros ? []|]. split; [intros x [<-|[]]; auto|]. apply read_ordered. intros es. generalize (@nil (K * V)) as res.
      induction es as [|e es IH]; intros res; cbn [meetLoop]; [exact Logic.I|]. apply read_ordered. intros x. apply IH.
    - cbn [join_ ordered]. split; [intros ? []|]. apply read_ordered. intros es. cbn [ordered]. split; [intros x [<-|[]]; auto|]. apply read_ordered. intros es'. exact Logic.I.
    - cbn [minus_ ordered]. split; [intros ? []|]. apply read_ordered. intros es. generalize (@nil (K * V)) as res.
      induction es as [|e es IH]; intros res; cbn [minusLoop]; [exact Logic.I|]. apply read_ordered. intros x. apply IH.
  Qed.
End Conc.
