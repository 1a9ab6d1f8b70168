(** Log-files and folders when an existing dump-folder is removed (C186) *)
From Coq Require Import String List Arith Bool Lia.
From Verif Require Import Base Base_Proofs Log_Model Rmd_Model Rmd_Spec.
Import ListNotations.
Local Open Scope list_scope.

Lemma doomed_iff f h : doomed f h = true <-> writes_there f h.
Proof. unfold doomed, writes_there. destruct (h_sink h) as [|p|n|]; split; try discriminate; try (intros (q & E & _); discriminate). intros H; eauto. intros (q & E & H). congruence. Qed.

(** what the loop leaves: a removed handler makes the iterator pass over the next one *)
Fixpoint leaves (f : string -> bool) (hs : list handler) (skip : bool) : list handler :=
  match hs with
  | [] => []
  | h :: r => if skip then h :: leaves f r false else if doomed f h then leaves f r true else h :: leaves f r false
  end.
Lemma filter_id l (h : handler) r : NoDup (map h_id (l ++ h :: r)) -> filter (fun k => negb (h_id k =? h_id h)) (l ++ h :: r) = l ++ r.
Proof.
  intros N. rewrite map_app in N. cbn in N. assert (X := NoDup_remove_2 _ _ _ N). rewrite filter_app. cbn. rewrite Nat.eqb_refl. cbn.
  assert (K : forall m, ~ In (h_id h) (map h_id m) -> filter (fun k => negb (h_id k =? h_id h)) m = m).
  { induction m as [|y m IH]; cbn; [reflexivity|]. intros Z. destruct (Nat.eqb_spec (h_id y) (h_id h)) as [E|E]; [elim Z; auto|]. cbn. f_equal. apply IH. tauto. }
  rewrite !K; [reflexivity| |]; intros Y; apply X; apply in_app_iff; auto.
Qed.
Lemma loop_end f fuel i l : List.length l <= i -> loop f fuel i l = l.
Proof. intros H. destruct fuel; [reflexivity|]. cbn [loop]. rewrite (proj2 (nth_error_None l i)) by lia. reflexivity. Qed.
Lemma loop_leaves f : forall r l fuel, NoDup (map h_id (l ++ r)) -> List.length r < fuel -> loop f fuel (List.length l) (l ++ r) = l ++ leaves f r false.
Proof.
  assert (G : forall m r l fuel, List.length r <= m -> NoDup (map h_id (l ++ r)) -> List.length r < fuel -> loop f fuel (List.length l) (l ++ r) = l ++ leaves f r false).
  { induction m as [|m IH]; intros r l fuel Lm N L.
    - destruct r; [|cbn in Lm; lia]. cbn [leaves]. apply loop_end. rewrite app_nil_r. lia.
    - destruct r as [|h r].
      + cbn [leaves]. apply loop_end. rewrite app_nil_r. lia.
      + destruct fuel as [|fuel]; [cbn in L; lia|]. cbn [loop]. rewrite nth_error_app2, Nat.sub_diag by lia. cbn [nth_error]. destruct (doomed f h) eqn:D; cbn [leaves]; rewrite D.
        * rewrite (filter_id l h r N). assert (N' : NoDup (map h_id (l ++ r))) by (rewrite map_app in *; cbn in N; apply NoDup_remove_1 in N; exact N).
          destruct r as [|k r].
          -- cbn [leaves]. apply loop_end. rewrite app_nil_r. lia.
          -- cbn [leaves]. assert (E1 : l ++ k :: r = (l ++ [k]) ++ r) by (rewrite <- app_assoc; reflexivity). assert (E2 : S (List.length l) = List.length (l ++ [k])) by (rewrite app_length; cbn; lia).
             rewrite E1, E2. rewrite (IH r (l ++ [k]) fuel); [rewrite <- app_assoc; reflexivity|cbn in Lm; lia|rewrite <- E1; exact N'|cbn in L; lia].
        * assert (E1 : l ++ h :: r = (l ++ [h]) ++ r) by (rewrite <- app_assoc; reflexivity). assert (E2 : S (List.length l) = List.length (l ++ [h])) by (rewrite app_length; cbn; lia).
          rewrite E1, E2. rewrite (IH r (l ++ [h]) fuel); [rewrite <- app_assoc; reflexivity|cbn in Lm; lia|rewrite <- E1; exact N|cbn in L; lia]. }
  intros. apply (G (List.length r)); auto.
Qed.
Lemma remove_leaves f st : different (handlers st) -> handlers (remove_dumpfolder f st) = leaves f (handlers st) false.
Proof. intros N. unfold remove_dumpfolder. cbn [handlers]. apply (loop_leaves f (handlers st) []); [exact N|lia]. Qed.

(** The console and the log-files elsewhere are kept, in their order, with their levels; whatever else is kept is a handler of the folder. *)
Theorem C186_others_kept : forall f st, different (handlers st) ->
  filter (fun h => negb (doomed f h)) (handlers (remove_dumpfolder f st)) = filter (fun h => negb (doomed f h)) (handlers st) /\
  (forall h, In h (handlers st) -> ~ writes_there f h -> In h (handlers (remove_dumpfolder f st))) /\
  (forall h, In h (handlers (remove_dumpfolder f st)) -> In h (handlers st)).
Proof.
  intros f st N. rewrite remove_leaves by exact N. generalize (handlers st). intros hs.
  assert (G : forall hs s, filter (fun h => negb (doomed f h)) (leaves f hs s) = filter (fun h => negb (doomed f h)) hs).
  { clear. induction hs as [|h r IH]; intros s; [reflexivity|]. cbn. destruct s; [cbn; rewrite IH; reflexivity|]. destruct (doomed f h) eqn:D; cbn; [apply IH|]. rewrite D. cbn. rewrite IH. reflexivity. }
  assert (S : forall hs s h, In h (leaves f hs s) -> In h hs).
  { clear. induction hs as [|k r IH]; intros s h; [intros []|]. cbn. destruct s; [intros [->|I]; eauto|]. destruct (doomed f k); [eauto|]. intros [->|I]; eauto. }
  split; [apply G|]. split; [|intros h; apply S]. intros h I W. assert (X : In h (filter (fun h => negb (doomed f h)) hs)).
  { apply filter_In. split; [exact I|]. destruct (doomed f h) eqn:D; [apply doomed_iff in D; contradiction|reflexivity]. }
  rewrite <- (G hs false) in X. apply filter_In in X. tauto.
Qed.
Print Assumptions C186_others_kept.

(** The log-files of the folder are stopped if no two of them are neighbours in the list of handlers ... *)
Theorem C186_stopped : forall f st, different (handlers st) -> apart f (handlers st) ->
  forall h, In h (handlers (remove_dumpfolder f st)) -> ~ writes_there f h.
Proof.
  intros f st N A h. rewrite remove_leaves by exact N. generalize (handlers st) A. clear N A st.
  assert (G : forall m hs s, List.length hs <= m -> apart f hs -> (s = true -> forall k r, hs = k :: r -> ~ writes_there f k) -> In h (leaves f hs s) -> ~ writes_there f h).
  { induction m as [|m IH]; intros hs s L A S I; [destruct hs; [destruct I|cbn in L; lia]|]. destruct hs as [|k r]; [destruct I|]. cbn in L, I.
    assert (A' : apart f r) by (intros l a b q E; apply (A (k :: l) a b q); rewrite E; reflexivity).
    destruct s.
    - destruct I as [<-|I]; [apply (S eq_refl k r eq_refl)|]. apply (IH r false); [lia|exact A'|discriminate|exact I].
    - destruct (doomed f k) eqn:D.
      + apply (IH r true); [lia|exact A'| |exact I]. intros _ q t E W. apply (A [] k q t); [rewrite E; reflexivity|]. split; [apply doomed_iff, D|exact W].
      + destruct I as [<-|I]; [intros W; apply doomed_iff in W; congruence|]. apply (IH r false); [lia|exact A'|discriminate|exact I]. }
  intros hs A I. apply (G (List.length hs) hs false); auto. discriminate.
Qed.
Print Assumptions C186_stopped.

(** ... and otherwise the second of the first two neighbours goes on writing to a file that was deleted. *)
Theorem C186_neighbours_refuted : forall f st l a b r, different (handlers st) -> handlers st = l ++ a :: b :: r ->
  (forall h, In h l -> ~ writes_there f h) -> writes_there f a -> writes_there f b -> In b (handlers (remove_dumpfolder f st)).
Proof.
  intros f st l a b r N E O A B. rewrite remove_leaves by exact N. rewrite E. clear N E. apply doomed_iff in A. induction l as [|h l IH]; cbn.
  - rewrite A. cbn. auto.
  - destruct (doomed f h) eqn:D; [apply doomed_iff in D; elim (O h); cbn; auto|]. right. apply IH. intros k K. apply O. right. exact K.
Qed.
Print Assumptions C186_neighbours_refuted.

(** After removing, the folder has exactly the three sub-folders; without removing, the existing ones stay. *)
Theorem C186_folders : forall fs, remove_and_make fs = subfolders /\
  (forall f, In f (make_folderstructure true fs subfolders) <-> In f fs \/ In f subfolders) /\
  exists added, make_folderstructure true fs subfolders = fs ++ added.
Proof.
  intros fs. split; [reflexivity|]. unfold make_folderstructure.
  assert (G : forall subs fs, (forall f, In f (fold_left (fun fs f => if inb string_dec f fs then fs else (fs ++ [f])%list) subs fs) <-> In f fs \/ In f subs) /\
    exists added, fold_left (fun fs f => if inb string_dec f fs then fs else (fs ++ [f])%list) subs fs = fs ++ added).
  { clear. induction subs as [|x subs IH]; intros fs; cbn [fold_left]; [split; [cbn; tauto|exists []; symmetry; apply app_nil_r]|].
    destruct (inb string_dec x fs) eqn:E.
    - destruct (IH fs) as [A B]. split; [|exact B]. intros f. rewrite A. apply inb_iff in E. cbn. split; [tauto|]. intros [X|[<-|X]]; auto.
    - destruct (IH (fs ++ [x])) as [A [added B]]. split; [|exists (x :: added); rewrite B, <- app_assoc; reflexivity]. intros f. rewrite A, in_app_iff. cbn. tauto. }
  apply G.
Qed.
Print Assumptions C186_folders.

Open Scope string_scope.
Example C186_example : let f := fun p => String.eqb p "run/cfg/a.log" || String.eqb p "run/cfg/b.log" in
  let a := mkh 1 "a" 20 (File "run/cfg/a.log") in let b := mkh 2 "b" 20 (File "run/cfg/b.log") in let c := mkh 3 "c" 20 (File "x.log") in let k := mkh 0 console_name 21 Console in
  handlers (remove_dumpfolder f (mklst 30 [] 10 [k; a; c; b] 4 [])) = [k; c] /\ handlers (remove_dumpfolder f (mklst 30 [] 10 [k; a; b; c] 4 [])) = [k; b; c] /\
  make_folderstructure true ["cfg"; "mine"] subfolders = ["cfg"; "mine"; "results"; "dumps"].
Proof. repeat split. Qed.
