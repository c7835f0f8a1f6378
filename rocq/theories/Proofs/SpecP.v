(** Facts about the specification itself. *)
From Verif.Props Require Export MapSpec.
From Coq Require Import NArith List Lia.
From stdpp Require Import base list numbers option gmap.
Import ListNotations.
Local Open Scope N_scope.

Lemma spec_value vs ops : forall d k, snd (spec_run vs d ops) !! k = value_after vs k (d !! k) ops.
Proof.
  induction ops as [|[k' w|k'] ops IH]; intros d k; [reflexivity| |].
  - cbn [spec_run spec_step]. destruct (spec_run vs _ ops) as [xs d'] eqn:E. cbn [snd].
    change d' with (snd (xs, d')). rewrite <- E, IH. cbn [value_after]. destruct (decide (k = k')) as [->|Hne].
    + rewrite lookup_insert. reflexivity.
    + rewrite lookup_insert_ne by congruence. reflexivity.
  - cbn [spec_run spec_step]. destruct (spec_run vs d ops) as [xs d'] eqn:E. cbn [snd].
    change d' with (snd (xs, d')). rewrite <- E, IH. reflexivity.
Qed.
Lemma value_after_some vs k ops : forall v, is_Some (value_after vs k (Some v) ops).
Proof.
  induction ops as [|[k' w|k'] ops IH]; intros v; simpl; [eauto| |apply IH].
  destruct (decide (k = k')); apply IH.
Qed.
Lemma value_after_none vs k ops : value_after vs k None ops = None <-> ~ In k (updated ops).
Proof.
  induction ops as [|[k' w|k'] ops IH]; simpl; [tauto| |exact IH].
  destruct (decide (k = k')) as [->|Hne].
  - split; [|tauto]. intros H. destruct (value_after_some vs k' ops (default (replicate vs 0) w)) as [v Hv]. simpl in *. congruence.
  - rewrite IH. split; [|tauto]. intros H [->|H2]; tauto.
Qed.
Lemma spec_dom vs ops : forall d, dom (snd (spec_run vs d ops)) = dom d ∪ list_to_set (updated ops).
Proof.
  induction ops as [|[k' w|k'] ops IH]; intros d; [simpl; set_solver| |].
  - cbn [spec_run spec_step]. destruct (spec_run vs _ ops) as [xs d'] eqn:E. cbn [snd].
    change d' with (snd (xs, d')). rewrite <- E, IH. simpl. rewrite dom_insert_L. set_solver.
  - cbn [spec_run spec_step]. destruct (spec_run vs d ops) as [xs d'] eqn:E. cbn [snd].
    change d' with (snd (xs, d')). rewrite <- E, IH. reflexivity.
Qed.
Lemma final_size vs ops : size (final vs ops) = size (list_to_set (updated ops) : gset (list N)).
Proof.
  unfold final. rewrite <- size_dom, spec_dom, dom_empty_L. f_equal. set_solver.
Qed.
Lemma spec_run_app vs ops1 ops2 d :
  spec_run vs d (ops1 ++ ops2) =
  (fst (spec_run vs d ops1) ++ fst (spec_run vs (snd (spec_run vs d ops1)) ops2),
   snd (spec_run vs (snd (spec_run vs d ops1)) ops2)).
Proof.
  revert d. induction ops1 as [|o ops1 IH]; intros d; simpl; [destruct (spec_run vs d ops2); reflexivity|].
  destruct (spec_step vs d o) as [x d1]. rewrite IH. destruct (spec_run vs d1 ops1) as [xs d2]. reflexivity.
Qed.
Lemma updated_app o1 o2 : updated (o1 ++ o2) = updated o1 ++ updated o2.
Proof. apply flat_map_app. Qed.
Lemma final_value vs ops k : final vs ops !! k = value_after vs k None ops.
Proof. unfold final. rewrite spec_value, lookup_empty. reflexivity. Qed.
Lemma distinct_size (ks : list (list N)) (dec : forall x y : list N, {x = y} + {x <> y}) :
  size (list_to_set ks : gset (list N)) = length (nodup dec ks).
Proof.
  assert (E : (list_to_set ks : gset (list N)) = list_to_set (nodup dec ks)).
  { apply set_eq. intros k. rewrite !elem_of_list_to_set, !elem_of_list_In. symmetry. apply nodup_In. }
  rewrite E. apply size_list_to_set. apply NoDup_ListNoDup. apply NoDup_nodup.
Qed.
