(** C75: what is accepted as JSON is a JSON text with an object or an array, apart from a few extras, and means what it says. *)
From Verif Require Import Base Util_Model Num_Model Path_Model Token_Model PathParser_Model Doc_Model Edit_Model Value_Model Concat_Model ConfigParser_Model Escape_Spec Round_Spec Rfc_Spec Rfc_Lemmas6.

(** The extras are those of [lax_document] in Rfc_Spec.v: vertical tabs and form feeds as blanks, the digits of unicode escapes,
    strings in three quotes, leading zeros and a bare point in numbers.  Brackets, commas, colons, names, the uniqueness of names and
    all contents are as RFC 8259 has them.  The includer is never asked. *)
Theorem json_only_accepted : forall includer text next r next', parse_config JSON includer text next = Ok (r, next') ->
  next' = next /\ exists j v, r = Some v /\ lax_document text j /\ denotes j v.
Proof. exact json_accepts. Qed.
Print Assumptions json_only_accepted.

(** The hypothesis is met, by texts that are JSON and, for each of the extras, by texts that are not. *)
Definition texts : list (str * value) :=
  let text s := VList [VScalar (SStr s true)] in
  [(lit "{ ""a"" : [1, {}], ""b"":""\u0041"" }", new_object [(lit "a", VList [VScalar (SInt 1 (lit "1")); new_object []]); (lit "b", VScalar (SStr (lit "A") true))]);
   ([ch 11] ++ lit "[null]" ++ [ch 12], VList [VScalar SNull]);
   (lit "[01]", VList [VScalar (SInt 1 (lit "01"))]);
   (lit "[1.]", VList [VScalar (SInt 1 (lit "1."))]);
   (lit "[-.5]", VList [VScalar (SDouble (S754_finite true 4503599627370496 (-53)) (lit "-.5"))]);
   (lit "[""\u4zzz""]", text [ch 4]);
   (lit "[""a\u0000b""]", text (lit "ab"));
   (lit "[""""""a\b""""""""""]", text (lit "a\b"""""));
   (lit "[""\u0000""""a\b""""""]", text (lit "a\b"))].
Example texts_accepted : Forall (fun t => parse_config JSON no_includes (fst t) 0 = Ok (Some (snd t), 0%nat)) texts.
Proof. repeat (constructor; [vm_compute; reflexivity|]). constructor. Qed.
Example texts_meant : Forall (fun t => exists j, lax_document (fst t) j /\ denotes j (snd t)) texts.
Proof.
  eapply Forall_impl; [|exact texts_accepted]. intros t H. cbn beta in H. destruct (json_only_accepted _ _ _ _ _ H) as [_ [j [v [E [L D]]]]]. injection E as <-. eauto.
Qed.
