(* C01: output references. *)
From Coq Require Import String List ZArith.
From Verif Require Import PyBase NamesModel NamesSpec NamesProofs.
Import ListNotations.
Local Open Scope string_scope.

(* A reference assembled from its parts is decomposed into exactly these parts. *)
Theorem C01_roundtrip_with_delay : forall inp obj key d,
  ref_parts_ok inp obj key None ->
  split_output (ref_text inp obj key (Some (str_of_Z d))) = Ok (mkOutput obj key d inp).
Proof. exact split_output_roundtrip. Qed.
Print Assumptions C01_roundtrip_with_delay.

Theorem C01_roundtrip_without_delay : forall inp obj key,
  ref_parts_ok inp obj key None ->
  split_output (ref_text inp obj key None) = Ok (mkOutput obj key 0 inp).
Proof. exact split_output_roundtrip0. Qed.
Print Assumptions C01_roundtrip_without_delay.

(* For every string: it is accepted exactly when it is the text of a reference whose
   parts do not contain the separators and whose delay is an integer; everything
   else is rejected with an error. *)
Theorem C01_accepts_exactly_the_grammar : forall s o,
  split_output s = Ok o <->
  exists dl, s = ref_text (o_input o) (o_obj o) (o_key o) dl /\
             ref_parts_ok (o_input o) (o_obj o) (o_key o) dl /\
             match dl with None => o_delay o = 0%Z | Some t => py_int t = Ok (o_delay o) end.
Proof. exact split_output_iff. Qed.
Print Assumptions C01_accepts_exactly_the_grammar.

(* str() then int() is the identity on integers. *)
Theorem C01_int_of_str : forall z, py_int (str_of_Z z) = Ok z.
Proof. exact py_int_str_of_Z. Qed.
Print Assumptions C01_int_of_str.

Example C01_ex1 : ref_parts_ok (Some "res_ef") "prop" (Some "out_ef") None.
Proof.
  repeat split; simpl; intros n a; do 12 (destruct n as [|n]; simpl; [intros H; injection H as <-; discriminate|] || (try discriminate)).
Qed.
Example C01_ex2 : split_output "res_ef-prop.out_ef:-1" = Ok (mkOutput "prop" (Some "out_ef") (-1) (Some "res_ef")).
Proof. reflexivity. Qed.
Example C01_ex3 : split_output "a:1:2" = Err ValueError /\ split_output "a-b-c.d" = Err ValueError
  /\ split_output "a.b.c" = Err ValueError /\ split_output "a:x" = Err ValueError.
Proof. repeat split. Qed.
