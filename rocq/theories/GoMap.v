(** The built-in Go map (used by map/hashmap, set/hashset, map/linkedhashmap).  It is not code of /repo; this file
    is the model of the language construct those packages use.
    - a map is a list of entries with distinct keys; [m[k]], [m[k] = v], [delete(m, k)] and [len(m)] as below;
    - key equality [keq] decides equality of the keys.  Keys that are not hashable (Go panics), NaN (never equal to
      itself) and the pair +0.0 / -0.0 (equal, yet distinguishable) are outside the model;
    - [range m] visits every entry exactly once, in an order the program cannot rely on: the models take an
      arbitrary [order] function and hand it the number of the operation, so that two loops over the same map may
      use different orders. *)
From Verif Require Import Base.

Section GoMap.
  Context {K V : Type} (keq : K -> K -> bool).
  Definition gmap := list (K * V).
  Fixpoint gm_get (m : gmap) (k : K) : option V :=
    match m with [] => None | (k', v) :: m' => if keq k' k then Some v else gm_get m' k end.
  Fixpoint gm_set (m : gmap) (k : K) (v : V) : gmap :=
    match m with
    | [] => [(k, v)]
    | (k', v') :: m' => if keq k' k then (k, v) :: m' else (k', v') :: gm_set m' k v
    end.
  Fixpoint gm_del (m : gmap) (k : K) : gmap :=
    match m with
    | [] => []
    | (k', v') :: m' => if keq k' k then m' else (k', v') :: gm_del m' k
    end.
  Definition gm_len (m : gmap) : nat := length m.

  (** ** Laws (proof side) *)
  Hypothesis Hk : forall a b, keq a b = true <-> a = b.
  Definition keys_of (m : gmap) := map fst m.

  Lemma keq_refl k : keq k k = true.
  Proof using Hk. now apply Hk. Qed.
  Lemma keq_neq a b : a <> b -> keq a b = false.
  Proof using Hk. intros H. destruct (keq a b) eqn:E; auto. apply Hk in E. contradiction. Qed.
  Lemma keq_spec a b : reflect (a = b) (keq a b).
  Proof using Hk. destruct (keq a b) eqn:E; constructor; [now apply Hk|]. intros ->. rewrite keq_refl in E. discriminate. Qed.

  Lemma gm_get_In m k v : gm_get m k = Some v -> In (k, v) m.
  Proof using Hk.
    induction m as [|[k' v'] m IH]; simpl; [discriminate|].
    destruct (keq_spec k' k) as [->|]; [intros [= ->]; auto|auto].
  Qed.
  Lemma gm_In_get m k v : NoDup (keys_of m) -> In (k, v) m -> gm_get m k = Some v.
  Proof using Hk.
    induction m as [|[k' v'] m IH]; simpl; [easy|]. intros Hn H. inversion Hn; subst.
    destruct (keq_spec k' k) as [->|Hne].
    - destruct H as [[= ->]|H]; [reflexivity|]. exfalso. apply H2. apply in_map_iff. exists (k, v); auto.
    - destruct H as [[= -> ->]|H]; [contradiction|auto].
  Qed.
  Lemma gm_get_keys m k : gm_get m k <> None <-> In k (keys_of m).
  Proof using Hk.
    induction m as [|[k' v'] m IH]; simpl; [easy|].
    destruct (keq_spec k' k) as [->|Hne].
    - split; [auto|discriminate].
    - rewrite IH. split; [auto|]. intros [E|E]; [contradiction|assumption].
  Qed.
  Lemma gm_get_set m k v k' : gm_get (gm_set m k v) k' = if keq k k' then Some v else gm_get m k'.
  Proof using Hk.
    induction m as [|[k1 v1] m IH]; simpl; [reflexivity|].
    destruct (keq_spec k1 k) as [->|Hne]; simpl.
    - destruct (keq k k'); reflexivity.
    - rewrite IH. destruct (keq_spec k1 k') as [->|]; [|reflexivity].
      rewrite (keq_neq k k') by congruence. reflexivity.
  Qed.
  Lemma gm_set_keys m k v k' : In k' (keys_of (gm_set m k v)) <-> k' = k \/ In k' (keys_of m).
  Proof using Hk.
    rewrite <- !gm_get_keys, gm_get_set. destruct (keq_spec k k') as [->|Hne].
    - split; [auto|discriminate].
    - split; [auto|]. intros [E|E]; [congruence|assumption].
  Qed.
  Lemma gm_set_nodup m k v : NoDup (keys_of m) -> NoDup (keys_of (gm_set m k v)).
  Proof using Hk.
    induction m as [|[k1 v1] m IH]; simpl; intros Hn.
    - constructor; [easy|constructor].
    - inversion Hn; subst. destruct (keq_spec k1 k) as [->|Hne]; simpl; [assumption|].
      constructor; auto. intros Hin. apply gm_set_keys in Hin as [E|E]; congruence.
  Qed.
  Lemma gm_set_len m k v : gm_len (gm_set m k v) = if gm_get m k then gm_len m else S (gm_len m).
  Proof using Hk.
    unfold gm_len. induction m as [|[k1 v1] m IH]; simpl; [reflexivity|].
    destruct (keq_spec k1 k) as [->|Hne]; simpl; [reflexivity|]. rewrite IH.
    destruct (gm_get m k); reflexivity.
  Qed.
  Lemma gm_get_del m k k' : NoDup (keys_of m) -> gm_get (gm_del m k) k' = if keq k k' then None else gm_get m k'.
  Proof using Hk.
    induction m as [|[k1 v1] m IH]; simpl; intros Hn.
    - destruct (keq k k'); reflexivity.
    - inversion Hn; subst. destruct (keq_spec k1 k) as [->|Hne]; simpl.
      + destruct (keq_spec k k') as [E0|]; [subst k'|reflexivity].
        destruct (gm_get m k) eqn:E; [|reflexivity]. exfalso. apply H1. apply gm_get_keys. congruence.
      + rewrite IH by assumption. destruct (keq_spec k1 k') as [->|]; [|reflexivity].
        rewrite (keq_neq k k') by congruence. reflexivity.
  Qed.
  Lemma gm_del_keys m k k' : NoDup (keys_of m) -> (In k' (keys_of (gm_del m k)) <-> k' <> k /\ In k' (keys_of m)).
  Proof using Hk.
    intros Hn. rewrite <- !gm_get_keys, gm_get_del by assumption. destruct (keq_spec k k') as [->|Hne].
    - split; [intros E; congruence|]. intros [E _]; congruence.
    - split; [intros E; split; congruence|]. intros [_ E]; exact E.
  Qed.
  Lemma gm_del_nodup m k : NoDup (keys_of m) -> NoDup (keys_of (gm_del m k)).
  Proof using Hk.
    induction m as [|[k1 v1] m IH]; simpl; intros Hn; [constructor|].
    inversion Hn; subst. destruct (keq_spec k1 k) as [->|Hne]; simpl; [assumption|].
    constructor; auto. intros Hin. apply gm_del_keys in Hin as [_ E]; auto.
  Qed.
  Lemma gm_del_len m k : gm_len (gm_del m k) = if gm_get m k then pred (gm_len m) else gm_len m.
  Proof using Hk.
    unfold gm_len. induction m as [|[k1 v1] m IH]; simpl; [reflexivity|].
    destruct (keq_spec k1 k) as [->|Hne]; simpl; [reflexivity|]. rewrite IH.
    destruct (gm_get m k) eqn:E; [|reflexivity]. destruct m; [discriminate|reflexivity].
  Qed.
End GoMap.
Arguments gmap K V : clear implicits.
