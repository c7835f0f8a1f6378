(** Model of include/poplar/compact_vector.hpp. *)
From Verif.Model Require Export BitTools.
Local Open Scope N_scope.

(** compact_vector.hpp:109-112 (fields) *)
Record compact_vector := mkCV {
  cv_chunks : vec N; cv_size : N; cv_mask : N; cv_width : N }.

(** compact_vector.hpp:36 default constructor *)
Definition cv_default : compact_vector := mkCV (vnew 0 0) 0 0 0.

(** compact_vector.hpp:38-45 *)
Definition cv_new (size width : N) : outcome compact_vector :=
  let* _ := throw_if (64 <=? width) ExWidth in
  Ret (mkCV (vnew (words_for (mul64 size width)) 0) size (sub64 (shl 1 width) 1) width).

(** compact_vector.hpp:64-74; [i * width_] wraps, [64 - mod] is in 1..64 and the shift by 64
    is impossible because [mod + width_ > 64] forces [mod > 0]. *)
Definition cv_get (cv : compact_vector) (i : N) : outcome N :=
  let* _ := assert_ (i <? cv_size cv) in
  let '(quo, mod_) := decompose_value 64 (mul64 i (cv_width cv)) in
  if mod_ + cv_width cv <=? 64 then
    let* c := vget (cv_chunks cv) quo in
    Ret (N.land (shr c mod_) (cv_mask cv))
  else
    let* c := vget (cv_chunks cv) quo in
    let* c' := vget (cv_chunks cv) (quo + 1) in
    Ret (N.land (N.lor (shr c mod_) (shl c' (64 - mod_))) (cv_mask cv)).

(** compact_vector.hpp:76-90 *)
Definition cv_set (cv : compact_vector) (i v : N) : outcome compact_vector :=
  let* _ := assert_ (i <? cv_size cv) in
  let* _ := assert_ (v <=? cv_mask cv) in
  let '(quo, mod_) := decompose_value 64 (mul64 i (cv_width cv)) in
  let mask := cv_mask cv in
  let* c := vget (cv_chunks cv) quo in
  let* ch := vset (cv_chunks cv) quo (N.land c (not64 (shl mask mod_))) in
  let* c := vget ch quo in
  let* ch := vset ch quo (N.lor c (shl (N.land v mask) mod_)) in
  if 64 <? mod_ + cv_width cv then
    let diff := 64 - mod_ in
    let* c := vget ch (quo + 1) in
    let* ch := vset ch (quo + 1) (N.land c (not64 (shr mask diff))) in
    let* c := vget ch (quo + 1) in
    let* ch := vset ch (quo + 1) (N.lor c (shr (N.land v mask) diff)) in
    Ret (mkCV ch (cv_size cv) mask (cv_width cv))
  else
    Ret (mkCV ch (cv_size cv) mask (cv_width cv)).

(** compact_vector.hpp:47-51 *)
Definition cv_new_init (size width init : N) : outcome compact_vector :=
  let* cv := cv_new size width in
  for_range 0 size (fun i cv => cv_set cv i init) cv.

(** compact_vector.hpp:55-58; new words are value-initialised, old words are kept as they are. *)
Definition cv_resize (cv : compact_vector) (size : N) : compact_vector :=
  mkCV (vresize (cv_chunks cv) (words_for (mul64 size (cv_width cv))))
       size (cv_mask cv) (cv_width cv).
