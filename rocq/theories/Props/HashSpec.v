(** What the compact containers require of their Hasher: on every universe of 1 to 63 bits it can be constructed,
    and [hash_inv] undoes [hash] and both stay in the universe ([hash] is then a bijection of the universe). *)
From Verif.Model Require Export Hash.
Local Open Scope N_scope.
Definition bijective (H : bij_hasher) : Prop := forall bits, 1 <= bits <= 63 ->
  exists h, hasher_new bits = Ret h /\
    forall x, x < 2 ^ bits -> exists y, hasher_hash h x = Ret y /\ y < 2 ^ bits /\ hasher_hash_inv h y = Ret x.
