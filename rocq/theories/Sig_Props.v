(** C170: a processing run leaves the signals of the session as they were, and reports its own errors. *)
From Coq Require Import List Bool.
From Verif Require Import Base Sig_Model.
Import ListNotations.

(** during a run a signal stops the processing: the events are set and SystemExit is raised, after the pool has been stopped *)
Theorem C170_during : forall u g s, main_thread u = true -> manager_error u = None -> writer_error u = None -> combiner_error u = None -> interrupted u = Some g ->
  snd (writer_pool u s) = Some SystemExit /\ mgr (fst (writer_pool u s)) = Gone /\ stop_set (fst (writer_pool u s)) = true.
Proof. intros u g s A B C D E. unfold writer_pool. rewrite A, B, C, D, E. destruct g; cbn; auto. Qed.
Print Assumptions C170_during.
(** without a signal the error of the block (or none) is passed on *)
Theorem C170_body : forall u s, main_thread u = true -> manager_error u = None -> writer_error u = None -> combiner_error u = None -> interrupted u = None ->
  snd (writer_pool u s) = body_error u /\ mgr (fst (writer_pool u s)) = Gone.
Proof. intros u s A B C D E. unfold writer_pool. rewrite A, B, C, D, E. cbn. auto. Qed.
Print Assumptions C170_body.

(** an error of the setup is replaced by an UnboundLocalError, whatever it was *)
Theorem C170_setup_refuted : forall u s, main_thread u = false \/ manager_error u <> None \/ writer_error u <> None \/ combiner_error u <> None ->
  snd (writer_pool u s) = Some UnboundLocalError.
Proof.
  intros [m me we ce i b] s H. unfold writer_pool. cbn in *. destruct m; cbn; auto. destruct me; auto. destruct we; auto. destruct ce; auto.
  exfalso. intuition congruence.
Qed.
Print Assumptions C170_setup_refuted.

(** once a pool has been used in the main thread, no signal has its usual effect again *)
Lemma never o s : h_int s <> Before /\ h_term s <> Before -> h_int (fst (do_op o s)) <> Before /\ h_term (fst (do_op o s)) <> Before.
Proof.
  intros [A B]. destruct o as [[m me we ce i b]|g]; cbn [do_op].
  - unfold writer_pool. cbn. destruct m; cbn; [|auto]. destruct me; cbn; [split; discriminate|]. destruct we; cbn; [split; discriminate|]. destruct ce; cbn; [split; discriminate|].
    destruct i as [[]|]; cbn; split; discriminate.
  - unfold arrives. destruct (handler_of g s); cbn; auto. unfold manual_shutdown. destruct (mgr s); cbn; split; discriminate.
Qed.
Lemma used u s : main_thread u = true -> h_int (fst (do_op (Pool u) s)) <> Before /\ h_term (fst (do_op (Pool u) s)) <> Before.
Proof.
  intros H. destruct u as [m me we ce i b]. cbn in H. subst m. cbn [do_op]. unfold writer_pool. cbn.
  destruct me; cbn; [split; discriminate|]. destruct we; cbn; [split; discriminate|]. destruct ce; cbn; [split; discriminate|].
  destruct i as [[]|]; cbn; split; discriminate.
Qed.
Theorem C170_handlers_refuted : forall ops u ops' g, main_thread u = true -> snd (do_op (Arrive g) (after (ops ++ Pool u :: ops'))) <> Usual.
Proof.
  intros ops u ops' g H. assert (K : h_int (after (ops ++ Pool u :: ops')) <> Before /\ h_term (after (ops ++ Pool u :: ops')) <> Before).
  { unfold after. rewrite fold_left_app. cbn [fold_left]. generalize (fold_left (fun s o => fst (do_op o s)) ops fresh). intros s.
    assert (Q := used u s H). revert Q. generalize (fst (do_op (Pool u) s)). clear. intros s Q. revert s Q.
    induction ops' as [|o l IH]; intros s Q; cbn [fold_left]; auto. apply IH. now apply never. }
  destruct K as [A B]. cbn [do_op]. unfold arrives. destruct g; cbn [handler_of].
  - destruct (h_int _); [congruence|discriminate|]. unfold manual_shutdown. destruct (mgr _); discriminate.
  - destruct (h_term _); [congruence|discriminate|]. unfold manual_shutdown. destruct (mgr _); discriminate.
Qed.
Print Assumptions C170_handlers_refuted.
(** after a run that was not interrupted, the first signal raises an OSError, and then all signals are ignored until the next run *)
Theorem C170_after_refuted : forall ops u g gs, main_thread u = true -> manager_error u = None -> writer_error u = None -> combiner_error u = None -> interrupted u = None ->
  let s := after (ops ++ [Pool u]) in
  snd (arrives g s) = Raised RuntimeError /\
  forall g', snd (arrives g' (fold_left (fun s g => fst (arrives g s)) gs (fst (arrives g s)))) = Nothing.
Proof.
  intros ops u g gs A B C D E s. assert (S : s = mksession Shutdown Shutdown Gone true).
  { unfold s, after. rewrite fold_left_app. cbn [fold_left do_op]. unfold writer_pool. rewrite A, B, C, D, E. reflexivity. }
  rewrite S. clear s S. split; [destruct g; reflexivity|]. intros g'.
  assert (F : fst (arrives g (mksession Shutdown Shutdown Gone true)) = mksession Ignored Ignored Gone true) by (destruct g; reflexivity). rewrite F.
  assert (G : fold_left (fun s g => fst (arrives g s)) gs (mksession Ignored Ignored Gone true) = mksession Ignored Ignored Gone true).
  { induction gs as [|h gs IH]; cbn [fold_left]; auto. replace (fst (arrives h (mksession Ignored Ignored Gone true))) with (mksession Ignored Ignored Gone true) by (destruct h; reflexivity). exact IH. }
  rewrite G. destruct g'; reflexivity.
Qed.
Print Assumptions C170_after_refuted.
Definition good_run : usage := mkusage true None None None None None.
Example C170_example :
  snd (do_op (Arrive SIGINT) fresh) = Usual /\ snd (do_op (Pool good_run) fresh) = Nothing /\
  snd (do_op (Arrive SIGINT) (after [Pool good_run])) = Raised RuntimeError /\
  snd (do_op (Arrive SIGINT) (after [Pool good_run; Arrive SIGTERM])) = Nothing /\
  snd (do_op (Pool (mkusage true None None None (Some SIGINT) None)) fresh) = Raised SystemExit /\
  snd (do_op (Pool (mkusage true (Some RuntimeError) None None None None)) fresh) = Raised UnboundLocalError.
Proof. repeat split; reflexivity. Qed.
