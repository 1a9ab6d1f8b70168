(** C221: loading fits does not change how the IDs of tables are shown. *)
From Coq Require Import Bool List.
From Verif Require Import Base Sid_Model.
Import ListNotations.

Section P.
(** the session without the loads *)
Let no_loads (ops : list op) : list op := filter (fun o => match o with Load _ => false | _ => true end) ops.

(** Loads of fits - successful or not, at any place of a session, also between the pages of a generator - change neither
    set_ID nor what the user sees; they themselves always read numbers. *)
Theorem C221_session : forall (flag : bool) (ops : list op),
  let '(fl, user, inside) := session flag ops in
  fl = fst (fst (session flag (no_loads ops))) /\ user = snd (fst (session flag (no_loads ops))) /\ Forall (fun named => named = false) inside.
Proof.
  intros flag ops. revert flag. induction ops as [|o ops IH]; intros flag; [repeat split; constructor|].
  cbn [session]. destruct o as [v| |b]; cbn [step no_loads filter].
  - specialize (IH v). cbn [session step]. fold (no_loads ops). destruct (session v ops) as [[fl u] i]. destruct (session v (no_loads ops)) as [[fl' u'] i']. exact IH.
  - specialize (IH flag). cbn [session step]. fold (no_loads ops). destruct (session flag ops) as [[fl u] i]. destruct (session flag (no_loads ops)) as [[fl' u'] i'].
    cbn [fst snd app] in *. destruct IH as [-> [-> H]]. repeat split; assumption.
  - cbn [load_fit numeric_ID]. specialize (IH flag). fold (no_loads ops). destruct (session flag ops) as [[fl u] i]. destruct IH as [-> [-> H]].
    repeat split. apply Forall_app. split; [|exact H]. apply Forall_forall. intros x Hx. now apply repeat_spec in Hx.
Qed.
(** The user sees names exactly if the last assignment before (or the constructor) says so. *)
Theorem C221_last : forall (flag v : bool) (a b : list op), (forall w, ~ In (Assign w) b) ->
  fst (fst (session flag (a ++ Assign v :: b))) = v /\
  forall x, In x (snd (fst (session v b))) -> x = v.
Proof.
  intros flag v a b Hb.
  assert (F : forall b fl, (forall w, ~ In (Assign w) b) -> fst (fst (session fl b)) = fl /\ forall x, In x (snd (fst (session fl b))) -> x = fl).
  { clear. induction b as [|o b IH]; intros fl H; [split; [reflexivity|intros x []]|]. cbn [session]. destruct o as [w| |c].
    - exfalso. apply (H w). now left.
    - cbn [step]. destruct (IH fl) as [E1 E2]; [intros w Hw; apply (H w); now right|]. destruct (session fl b) as [[fl' u] i]. cbn in *. split; [exact E1|].
      intros x [<-|Hx]; [reflexivity|now apply E2].
    - cbn [step load_fit numeric_ID]. destruct (IH fl) as [E1 E2]; [intros w Hw; apply (H w); now right|]. destruct (session fl b) as [[fl' u] i]. cbn in *. now split. }
  split; [|now apply F]. revert flag. induction a as [|o a IH]; intros flag.
  - cbn [app session step]. destruct (F b v Hb) as [E _]. destruct (session v b) as [[fl' u] i]. exact E.
  - cbn [app session]. destruct (step flag o) as [[fl u] i]. specialize (IH fl). destruct (session fl (a ++ Assign v :: b)) as [[fl' u'] i']. exact IH.
Qed.
End P.
Print Assumptions C221_session.
Print Assumptions C221_last.

(** names for the user, numbers for two loads, one of which raises *)
Example C221_example :
  session true [Read; Load (mkbody 2 (Err KeyError)); Read; Assign false; Load (mkbody 1 (Ok tt)); Read; Assign true; Read]
  = (true, [true; true; false; true], [false; false; false]).
Proof. reflexivity. Qed.
