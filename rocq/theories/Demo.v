(** The demonstration program the README gives as quick start: /repo/src/core/demo.rs. *)
From Coq Require Import String NArith List.
From Verif Require Import Prelude Field Bilinear Scheme Policy Engine.
Import ListNotations.
Local Open Scope string_scope.

Section Demo.
Variable B : BilinearMap.
Variable P : platform.
Notation K := (bm_K B).

(** assert!(r.is_err()), demo.rs:163, 175 *)
Definition assert_err {A} (o : outcome A) : outcome unit :=
  match o with Err _ => Ok tt | Ok _ => Panic ExplicitPanic | Panic p => Panic p end.
(** assert!(r.is_none()), demo.rs:232, 255, 285 *)
Definition assert_none {A} (o : option A) : outcome unit :=
  match o with None => Ok tt | Some _ => Panic ExplicitPanic end.
(** .expect("Decryption must works"), demo.rs:208, 215, 238, 261, 294, 318, 324 *)
Definition expect {A} (o : option A) : outcome A :=
  match o with Some a => Ok a | None => Panic UnwrapNone end.

(** the axes, demo.rs:52-68 *)
Definition demo_levels : list string := ["Protected"; "Low Secret"; "Medium Secret"; "High Secret"; "Top Secret"].
Definition demo_departments : list string := ["R&D"; "HR"; "MKG"; "FIN"].
Definition lev (x : string) : attribute := ("Security Level", x).
Definition dep (x : string) : attribute := ("Department", x).

(** the access policies, demo.rs:99-101, 111-113, 131-132, 153-154, 165-166. The
    program reads them from texts with the external crate abe_policy. *)
Definition high_mkg_fin : access_policy := AAnd (AAttr (lev "High Secret")) (AOr (AAttr (dep "MKG")) (AAttr (dep "FIN"))).
Definition top_mkg_fin : access_policy := AAnd (AAttr (lev "Top Secret")) (AOr (AAttr (dep "MKG")) (AAttr (dep "FIN"))).
Definition medium_mkg : access_policy := AAnd (AAttr (lev "Medium Secret")) (AAttr (dep "MKG")).
Definition top_mkg : access_policy := AAnd (AAttr (lev "Top Secret")) (AAttr (dep "MKG")).
Definition medium_hr : access_policy := AAnd (AAttr (lev "Medium Secret")) (AAttr (dep "HR")).

(** What the program compares with assert_eq!, left and right, and what it makes
    besides. *)
Record demo_result := mkDemo {
  compared : list (Gt B * Gt B);
  demo_master : master_key B;
  demo_policy : policy; (* before the rotation *)
  unused_user : decryption_key B (* _medium_secret_mkg_user, demo.rs:134 *)
}.

(** abe, demo.rs:20-327. The random choices of the calls are arguments: the draws
    of the master key and of the keys, the messages and the scalars of the
    encryptions; so are the orders of iteration. The printing (demo.rs:70, 78,
    80-88, 115-118, 146-149), with the encodings it prints, is left out. assert_eq! is
    replaced by the list of compared pairs, since equality in the target group is
    not a function of the model. *)
Definition demo (it : nat -> iteration) (mdraw : nat -> K) (draw : nat -> nat -> K) (msg : nat -> Gt B) (s : nat -> K)
    : outcome demo_result :=
  let* p := add_axis (new_policy 100) "Security Level" demo_levels true in
  let* p := add_axis p "Department" demo_departments false in
  let* mk := eng_master_key p mdraw in
  let* high := eng_user_key P (it 0) p (priv_key mk) high_mkg_fin (draw 0) in
  let* top := eng_user_key P (it 1) p (priv_key mk) top_mkg_fin (draw 1) in
  let* super := eng_user_key P (it 2) p (priv_key mk) AAll (draw 2) in
  let* unused := eng_delegate P (it 3) p (del_key mk) super medium_mkg (draw 3) in
  let* medium := eng_delegate P (it 4) p (del_key mk) high medium_mkg (draw 4) in
  let* _ := assert_err (eng_delegate P (it 5) p (del_key mk) high top_mkg (draw 5)) in
  let* _ := assert_err (eng_delegate P (it 6) p (del_key mk) high medium_hr (draw 6)) in
  let* super_user := eng_delegate P (it 7) p (del_key mk) super AAll (draw 7) in
  let* ct0 := eng_encrypt P p (pub_key mk) [lev "Low Secret"; dep "MKG"] (msg 0) (s 0) in
  let* r := eng_decrypt ct0 medium in let* r0 := expect r in
  let* r := eng_decrypt ct0 super_user in let* r1 := expect r in
  let* ct1 := eng_encrypt P p (pub_key mk) [lev "Top Secret"; dep "MKG"] (msg 1) (s 1) in
  let* r := eng_decrypt ct1 medium in let* _ := assert_none r in
  let* r := eng_decrypt ct1 super_user in let* r2 := expect r in
  let* ct2 := eng_encrypt P p (pub_key mk) [lev "Low Secret"; dep "HR"] (msg 2) (s 2) in
  let* r := eng_decrypt ct2 medium in let* _ := assert_none r in
  let* r := eng_decrypt ct2 super_user in let* r3 := expect r in
  let* q := rotate p (lev "Low Secret") in
  let* ct3 := eng_encrypt P q (pub_key mk) [lev "Low Secret"; dep "MKG"] (msg 3) (s 3) in
  let* r := eng_decrypt ct3 medium in let* _ := assert_none r in
  let* r := eng_decrypt ct3 super_user in let* r4 := expect r in
  let* high := eng_user_key P (it 8) q (priv_key mk) high_mkg_fin (draw 8) in
  let* medium := eng_delegate P (it 9) q (del_key mk) high medium_mkg (draw 9) in
  let* r := eng_decrypt ct3 medium in let* r5 := expect r in
  let* r := eng_decrypt ct0 medium in let* r6 := expect r in
  Ok (mkDemo [(msg 0, r0); (msg 0, r1); (msg 1, r2); (msg 2, r3); (msg 3, r4); (msg 3, r5); (msg 0, r6)] mk p unused).
End Demo.
Arguments compared {B}. Arguments demo_master {B}. Arguments demo_policy {B}. Arguments unused_user {B}.
