(** Property C98: all sequences of calls of an accessor callback
    (rt1/rtfits.py:3097-3115).
    Only property theorems, examples and assumption listings. *)
From Coq Require Import List Arith String Lia.
From Verif Require Import Base Base_Proofs Mf_Model Exa17_Spec.
Import ListNotations.
Local Open Scope list_scope.

(** a call with positional arguments raises and leaves no trace; any other
    call hands over the arguments of the accessor, and each keyword with the
    value of the latest call up to this one that gives it *)
Theorem C98_exactly : forall A (c : callback A) l, (forall a kw, In (a, kw) l -> NoDup (keys kw)) ->
  forall i a kw, nth_error l i = Some (a, kw) ->
  (a <> [] -> nth_error (calls c l) i = Some (Err (match cb_args c with [] => AttributeError | _ :: _ => TypeError end))) /\
  (a = [] -> exists r, nth_error (calls c l) i = Some (Ok (cb_args c, r)) /\
     forall k, dget string_dec k r = match latest k (firstn (S i) l) with Some v => Some v | None => dget string_dec k (cb_kwargs c) end).
Proof.
  intros A c l. revert c. induction l as [|[a0 kw0] l IH]; intros c N i a kw Hi; [destruct i; discriminate|].
  assert (N0 : NoDup (keys kw0)) by (apply (N a0); left; reflexivity).
  assert (N' : forall a kw, In (a, kw) l -> NoDup (keys kw)) by (intros a1 k1 H; apply (N a1); right; exact H).
  destruct i as [|i]; cbn [nth_error] in Hi.
  - injection Hi as <- <-. destruct a0 as [|x a0].
    + split; [congruence|intros _]. cbn [calls call nth_error]. eexists. split; [reflexivity|]. intros k.
      rewrite dget_dupdate by exact N0. cbn [firstn latest]. destruct (dget string_dec k kw0); reflexivity.
    + split; [intros _|discriminate]. reflexivity.
  - destruct a0 as [|x a0].
    + cbn [calls call nth_error]. destruct (IH (mkcb (cb_args c) (dupdate string_dec (cb_kwargs c) kw0)) N' i a kw Hi) as [P Q].
      split; [exact P|]. intros Ha. destruct (Q Ha) as (r & R & K). exists r. split; [exact R|]. intros k. rewrite K.
      change (firstn (S (S i)) (([], kw0) :: l)) with (([] : list A, kw0) :: firstn (S i) l). cbn [latest cb_kwargs].
      destruct (latest k (firstn (S i) l)); [reflexivity|]. rewrite dget_dupdate by exact N0. destruct (dget string_dec k kw0); reflexivity.
    + cbn [calls call nth_error]. destruct (IH c N' i a kw Hi) as [P Q]. split; [exact P|].
      intros Ha. destruct (Q Ha) as (r & R & K). exists r. split; [exact R|]. intros k. rewrite K.
      change (firstn (S (S i)) ((x :: a0, kw0) :: l)) with ((x :: a0, kw0) :: firstn (S i) l). cbn [latest].
      destruct (latest k (firstn (S i) l)); reflexivity.
Qed.
Print Assumptions C98_exactly.

Example C98_exactly_example :
  let l := [([], [("k"%string, 1)]); ([7], [("k"%string, 2)]); ([], [("m"%string, 3)])] in
  (forall a kw, In (a, kw) l -> NoDup (keys kw)) /\ latest "k" (firstn 3 l) = Some 1 /\
  calls (mkcb [5] [("k"%string, 0)]) l =
    [Ok ([5], [("k"%string, 1)]); Err TypeError; Ok ([5], [("k"%string, 1); ("m"%string, 3)])].
Proof.
  cbv zeta. split; [|split; reflexivity]. intros a kw H. cbn [In] in H.
  repeat (destruct H as [H|H]; [injection H as <- <-; repeat constructor; cbn; tauto|]). destruct H.
Qed.
