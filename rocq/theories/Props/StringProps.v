(** C51: with std::string and const char* keys the map is a dictionary over strings. *)
From Verif.Proofs Require Import StringP FastP.
From Verif.Props Require Export StringSpec.
Local Open Scope N_scope.

(** Every history of find and update, the keys being std::strings without NULs or terminated C strings in any
    mixture, observes the dictionary over the strings: equal strings are one key however they are passed, the
    empty string and strings that are prefixes of each other are different keys, no call throws. *)
Theorem C51_dictionary : forall dbg vs i cb e ops, valid_inst i -> i_supported vs i cb e (supdated ops) ->
  Forall (valid_sop vs) ops -> (i_traps dbg i = true -> ~ In [] (updated (map plain_op ops))) ->
  exists m0, i_new dbg vs i cb (2 ^ e) = Ret m0 /\
    i_yields i cb e (supdated ops) (i_text_run dbg vs i m0 ops)
      (fun '(xs, _) => xs = fst (spec_run vs ∅ (map plain_op ops))).
Proof. exact i_text_run_ok. Qed.

(** make_char_range makes a key from every terminated C string, reads no byte after its first NUL, and agrees
    with the std::string of the same contents. *)
Theorem C51_c_string : forall s rest, Forall (fun c => 0 < c < 256) s ->
  range_of (CStr (s ++ 0 :: rest)) = Ret (s ++ [0]) /\ range_of (Str s) = Ret (s ++ [0]) /\ valid_key (s ++ [0]).
Proof.
  intros s rest Hs. split; [|split; [reflexivity|exists s; auto]]. cbn [range_of].
  rewrite range_of_cstring_ok by (apply in_or_app; right; left; reflexivity). f_equal. f_equal.
  induction Hs as [|c s Hc Hs IH]; [reflexivity|]. cbn. rewrite IH. destruct c; [lia|reflexivity].
Qed.
(** Without a terminator strlen runs out of the memory. *)
Theorem C51_unterminated : forall buf, ~ In 0 buf -> range_of (CStr buf) = UB.
Proof. exact range_of_cstring_ub. Qed.
(** A std::string with a NUL is not cut: its range is not a valid key, and not the key of the C string (C10). *)
Theorem C51_embedded_nul : forall s rest, range_of (Str (s ++ 0 :: rest)) = Ret (s ++ 0 :: rest ++ [0]) /\
  ~ valid_key (s ++ 0 :: rest ++ [0]) /\ range_of (CStr (s ++ 0 :: rest ++ [0])) <> range_of (Str (s ++ 0 :: rest)).
Proof.
  intros s rest. split; [cbn; unfold range_of_string; rewrite <- app_assoc; reflexivity|].
  assert (Hn : ~ valid_key (s ++ 0 :: rest ++ [0])).
  { intros (x & E & Hx). rewrite app_comm_cons, app_assoc in E. apply app_inj_tail in E as [E _].
    rewrite Forall_forall in Hx. specialize (Hx 0). rewrite <- E in Hx.
    assert (0 < 0 < 256) as H by (apply Hx, elem_of_app; right; left). lia. }
  split; [exact Hn|]. cbn [range_of]. rewrite range_of_cstring_ok by (apply in_or_app; right; left; reflexivity).
  unfold range_of_string. intros E. injection E as E. rewrite <- app_assoc in E. cbn [app] in E.
  clear Hn. induction s as [|c s IH]; cbn in E; [destruct rest; discriminate|].
  destruct c; [destruct s; discriminate|]. injection E as E. apply IH, E.
Qed.

(** ** The hypotheses are met *)
Definition demo_inst : inst := inst_of (semi_compact_bonsai_map cs16).
Definition demo : list sop :=
  [SUpdate (Str [116; 101; 99; 104]) (Some [1; 0; 0; 0]); SFind (CStr [116; 101; 99; 104; 0; 55; 0]); SUpdate (CStr [0]) (Some [2; 0; 0; 0]);
   SFind (Str []); SFind (Str [116; 101]); SUpdate (CStr [116; 101; 0; 99; 104]) None; SFind (Str [116; 101])].
Example demo_valid : valid_inst demo_inst /\ i_supported 4 demo_inst 0 1 (supdated demo) /\ Forall (valid_sop 4) demo /\
  (i_traps true demo_inst = true -> ~ In [] (updated (map plain_op demo))).
Proof.
  split. { split; [cbn; lia|]. split; exact I. }
  split.
  { split; [lia|]. split; [vm_compute; discriminate|]. split; [reflexivity|].
    assert (H : (size (alphabet (supdated demo)) <=? 254)%nat = true) by (vm_compute; reflexivity). apply Nat.leb_le, H. }
  split; [|intros H; discriminate H].
  repeat constructor; cbn; auto 10; reflexivity.
Qed.
Example demo_runs :
  (let* m := i_new true 4 demo_inst 0 2 in let* r := i_text_run true 4 demo_inst m demo in Ret (fst r)) =
    Ret [(Saw [0;0;0;0], 1); (Found (Some [1;0;0;0]), 1); (Saw [0;0;0;0], 2); (Found (Some [2;0;0;0]), 2); (Found None, 2);
         (Saw [0;0;0;0], 3); (Found (Some [0;0;0;0]), 3)] /\
  fst (spec_run 4 ∅ (map plain_op demo)) =
    [(Saw [0;0;0;0], 1); (Found (Some [1;0;0;0]), 1); (Saw [0;0;0;0], 2); (Found (Some [2;0;0;0]), 2); (Found None, 2);
     (Saw [0;0;0;0], 3); (Found (Some [0;0;0;0]), 3)].
Proof. split; [run|vm_compute; reflexivity]. Qed.

(** One query for all theorems of this file. *)
Definition string_props := (@C51_dictionary, @C51_c_string, @C51_unterminated, @C51_embedded_nul).
Print Assumptions string_props.
