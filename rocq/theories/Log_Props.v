(** C150-C152: log-files, the console, the layout of messages *)
From Coq Require Import String Ascii Arith Bool Lia List.
From Verif Require Import Base Log_Model Log_Spec Log_Proofs Log2_Proofs.
Import ListNotations.
Local Open Scope string_scope.
Local Open Scope list_scope.

(** ** C150: log-files *)
(** after any history of calls, a message (of level DEBUG or above) is written once for each log-file that
    is open at this time and whose level allows it, and all other calls write nothing of the user;
    if the root logger had no handlers when rt1 was imported and no log-file has the name of the console *)
Theorem C150_files_partial : forall openable rl ops l s, Forall files_only ops -> 10 <= l ->
  exists w, out (session openable rl [] (ops ++ [Log l s])) = out (session openable rl [] ops) ++ map (fun k => (k, Text s)) w /\
  forall p, count_occ sink_dec w (File p) = copies openable ops l p.
Proof.
  intros openable rl ops l s F Hl. rewrite session_app. cbn [step fst].
  destruct (log_step openable _ ops l s (session_inv openable rl ops F) Hl F) as (w & A & B & _). eauto.
Qed.
Print Assumptions C150_files_partial.

Theorem C150_only_messages : forall openable rl ops o, Forall files_only (ops ++ [o]) -> is_log o = false ->
  forall k, texts k (out (session openable rl [] (ops ++ [o]))) = texts k (out (session openable rl [] ops)).
Proof.
  intros openable rl ops o F Ho k. apply Forall_app in F. destruct F as [F Fo]. inversion Fo; subst. rewrite session_app.
  destruct (step_inv openable _ ops o (session_inv openable rl ops F)) as [_ Q]; [assumption|]. destruct (Q Ho) as (w & E & W).
  rewrite E. unfold texts. rewrite flat_map_app. rewrite <- app_nil_r. f_equal.
  clear E. induction w as [|e w IH]; [reflexivity|]. cbn [flat_map]. rewrite IH; [|intros x Hx; apply W; right; exact Hx].
  specialize (W e (or_introl eq_refl)). destruct e as [x [t| | |]]; [contradiction| | |]; destruct x, k; reflexivity.
Qed.
Print Assumptions C150_only_messages.

(** starting a log-file that cannot be opened raises, but the log-file that was open with this name is closed *)
Theorem C150_failed_start_refuted : forall openable rl ops p n l, Forall files_only (ops ++ [Start p n l]) -> openable p = false ->
  exists st, step openable (session openable rl [] ops) (Start p n l) = (st, Err RuntimeError) /\ forall h, In h (handlers st) -> h_name h <> n.
Proof.
  intros openable rl ops p n l F Hp. apply Forall_app in F. destruct F as [F Fo]. inversion Fo; subst. cbn [step]. unfold start_log_to_file.
  destruct (stop_inv openable n _ ops (session_inv openable rl ops F)) as (st & E & I & Hn & _); [assumption|]. rewrite E, (inv_setup _ _ _ I), Hp.
  exists st. split; [reflexivity|]. intros h Hh C. apply Hn. rewrite <- C. apply in_map, Hh.
Qed.
Print Assumptions C150_failed_start_refuted.

(** if the root logger has handlers when rt1 is imported (e.g. after logging.basicConfig()), messages below its level
    are written nowhere, whatever log-files are started with whatever level *)
Theorem C150_root_refuted : forall openable rl rh ops l s, rh <> [] -> l < rl ->
  out (session openable rl rh (ops ++ [Log l s])) = out (session openable rl rh ops).
Proof.
  intros openable rl rh ops l s H Hl. rewrite session_app. cbn [step fst]. destruct (session_rooted openable rl rh ops H) as (A & B & C).
  unfold emit, effective. rewrite C, A. cbn [Nat.eqb]. destruct (Nat.ltb_spec l rl); [reflexivity|lia].
Qed.
Print Assumptions C150_root_refuted.

(** two log-files, one of them restarted in between; levels; a failing start.  With a root handler nothing arrives *)
Example C150_example :
  let ok p := negb (String.eqb p "bad") in
  let ops := [Start "a.log" "rt1_filehandler" 10; Start "b.log" "second" 30; Log 20 "x"; Log 40 "y"; Start "c.log" "rt1_filehandler" 10;
              Stop "second"; Log 40 "z"; Start "bad" "rt1_filehandler" 10; Log 50 "w"] in
  Forall files_only ops /\
  texts (File "a.log") (out (session ok 30 [] ops)) = ["x"; "y"] /\ texts (File "b.log") (out (session ok 30 [] ops)) = ["y"] /\
  texts (File "c.log") (out (session ok 30 [] ops)) = ["z"] /\ texts Console (out (session ok 30 [] ops)) = ["y"; "z"; "w"] /\
  copies ok (firstn 3 ops) 40 "b.log" = 1 /\ copies ok (firstn 3 ops) 20 "b.log" = 0 /\
  texts (File "a.log") (out (session ok 30 [mkh 0 "" 0 (Custom 0)] ops)) = ["y"].
Proof. split; [repeat constructor; discriminate|]. vm_compute. repeat split. Qed.

(** ** C151: the console *)
(** a message is shown once on the console if its level is at least 21 (PROG.) or the level set last *)
Theorem C151_console_partial : forall openable rl ops l s, Forall files_only ops -> 10 <= l ->
  exists w, out (session openable rl [] (ops ++ [Log l s])) = out (session openable rl [] ops) ++ map (fun k => (k, Text s)) w /\
  count_occ sink_dec w Console = (if Nat.leb (console_level ops 21) l then 1 else 0).
Proof.
  intros openable rl ops l s F Hl. rewrite session_app. cbn [step fst].
  destruct (log_step openable _ ops l s (session_inv openable rl ops F) Hl F) as (w & A & _ & B). eauto.
Qed.
Print Assumptions C151_console_partial.

(** set_log_handler_level succeeds for the console and for the log-files that are open, otherwise it is an IndexError *)
Theorem C151_set_level : forall openable rl ops l n, Forall files_only ops ->
  snd (step openable (session openable rl [] ops) (SetLevel l n)) =
  (if String.eqb n console_name then Ok tt else match status openable n ops None with Some _ => Ok tt | None => Err IndexError end).
Proof.
  intros openable rl ops l n F. pose proof (session_inv openable rl ops F) as I. cbn [step]. unfold set_log_handler_level. rewrite (inv_setup _ _ _ I).
  destruct I as [_ _ _ _ (i & fs & E & Ff & N & L)]. rewrite E. destruct (String.eqb_spec n console_name) as [->|Hn].
  - cbn [set_first h_name]. rewrite String.eqb_refl. reflexivity.
  - rewrite set_first_fs by exact Hn. rewrite (L n Hn). destruct (set_first n l fs) as [r|] eqn:S.
    + cbn [snd]. destruct (in_dec string_dec n (map h_name fs)) as [H|H].
      * apply in_map_iff in H. destruct H as (h & Eh & Hh). rewrite Forall_forall in Ff. destruct (Ff h Hh) as [_ [p Hp]].
        rewrite (lookup_in openable n fs h p N Hh Eh Hp). reflexivity.
      * apply (set_first_none openable n l fs) in H. congruence.
    + apply (set_first_none openable n l fs) in S. rewrite (lookup_none n fs) by exact S. reflexivity.
Qed.
Print Assumptions C151_set_level.

(** stopping (or starting) a log-file with the name of the console raises an AttributeError and removes the console *)
Theorem C151_console_lost_refuted : forall openable rl ops o, Forall files_only ops -> o = Stop console_name \/ (exists p l, o = Start p console_name l) ->
  exists st, step openable (session openable rl [] ops) o = (st, Err AttributeError) /\ forall l, ~ In Console (targets st l).
Proof.
  intros openable rl ops o F Ho. pose proof (session_inv openable rl ops F) as I.
  assert (X : exists st, stop_log_to_file console_name (session openable rl [] ops) = (st, Err AttributeError) /\ forall l, ~ In Console (targets st l)).
  { unfold stop_log_to_file. rewrite (inv_setup _ _ _ I). destruct I as [_ R _ D (i & fs & E & Ff & N & L)].
    rewrite E. cbn [filter h_name]. rewrite String.eqb_refl. cbn [close_all h_id h_sink]. eexists. split; [reflexivity|].
    intros l H. rewrite E in D. simpl in D. inversion D as [|? ? D1 D2]; subst.
    unfold targets, remove_handler in H. cbn [handlers root_handlers] in H. rewrite E in H. cbn [filter h_id] in H. rewrite Nat.eqb_refl in H. cbn [negb] in H.
    rewrite filter_ids in H by exact D1.
    assert (G : forall hs, incl hs (fs ++ root_handlers (session openable rl [] ops)) -> ~ In Console (map h_sink (filter (fun h => Nat.leb (h_level h) l) hs))).
    { intros hs Hs X. apply in_map_iff in X. destruct X as (h & Eh & Hh). apply filter_In in Hh. destruct Hh as [Hh _]. apply Hs, in_app_or in Hh. rewrite Forall_forall in Ff, R.
      destruct Hh as [Hh|Hh]; [destruct (Ff h Hh) as [_ [p Hp]]|destruct (R h Hh) as [p Hp]]; congruence. }
    destruct (fs ++ root_handlers (session openable rl [] ops)) as [|h hs] eqn:Eh.
    - destruct (Nat.leb 30 l); cbn in H; intuition discriminate.
    - exact (G (h :: hs) (incl_refl _) H). }
  destruct X as (st & E & T). destruct Ho as [->|(p & l & ->)]; cbn [step].
  - exists st. auto.
  - unfold start_log_to_file. rewrite E. exists st. auto.
Qed.
Print Assumptions C151_console_lost_refuted.

(** with a handler of the root logger at import there is no console handler whose level could be set *)
Theorem C151_root_refuted : forall openable rl rh l, rh <> [] ->
  snd (step openable (session openable rl rh []) (SetLevel l console_name)) = Err IndexError.
Proof.
  intros openable rl rh l H. unfold session. cbn [fold_left step]. unfold set_log_handler_level.
  rewrite !(setup_rooted rh); try assumption; try reflexivity. rewrite (setup_rooted rh); [reflexivity|assumption|reflexivity].
Qed.
Print Assumptions C151_root_refuted.

Example C151_example :
  let ops := [Log 21 "shown"; Log 20 "not shown"; SetLevel 10 console_name; Log 20 "shown too"] in
  Forall files_only ops /\ texts Console (out (session (fun _ => true) 30 [] ops)) = ["shown"; "shown too"] /\ console_level ops 21 = 10 /\
  [mkh 0 "" 0 (Custom 0)] <> [].
Proof. split; [repeat constructor|]. vm_compute. repeat split. discriminate. Qed.

(** ** C152: the layout *)
(** in files: time, process and level, then the first line; the other lines (if not blank) are indented by 51 *)
Theorem C152_files : forall r first rest, well_formed r first rest ->
  visible (format_plain r) = join ((header r ++ first) :: map (shifted 51) rest).
Proof. intros r first rest W. rewrite (plain_layout r first rest W). apply visible_ch. Qed.
Print Assumptions C152_files.

(** on the console likewise, for the six levels that have a colour *)
Theorem C152_console_partial : forall r first rest, well_formed r first rest -> In (r_level r) [10; 20; 21; 30; 40; 50] ->
  exists g, format_coloured r = Ok g /\ visible g = join ((header r ++ first) :: map (shifted 51) rest).
Proof.
  intros r first rest W H. assert (exists c, colour (r_level r) = Some c) as [c Hc].
  { repeat (destruct H as [H|H]; [rewrite <- H; eexists; reflexivity|]). destruct H. }
  exact (coloured_layout r first rest c W Hc).
Qed.
Print Assumptions C152_console_partial.

(** the lines of a message are aligned if process and level have the usual length; longer names shift the first line *)
Theorem C152_aligned_partial : forall r, String.length (r_time r) = 19 ->
  (String.length (r_process r) <= 21 -> String.length (r_levelname r) <= 8 -> length (header r) = 51) /\
  (21 < String.length (r_process r) -> length (header r) > 51).
Proof. intros r H. rewrite header_length, H. lia. Qed.
Print Assumptions C152_aligned_partial.

(** messages of any other level are not shown on the coloured console: the formatter raises *)
Theorem C152_levels_refuted : forall r, ~ In (r_level r) [10; 20; 21; 30; 40; 50] -> format_coloured r = Err TypeError.
Proof.
  intros r H. unfold format_coloured. assert (E : colour (r_level r) = None); [|rewrite E; reflexivity].
  simpl in H. set (l := r_level r) in *. clearbody l. do 51 (destruct l as [|l]; [try reflexivity; exfalso; tauto|]). reflexivity.
Qed.
Print Assumptions C152_levels_refuted.

Example C152_example :
  let r := mkrec "2021-01-01 00:00:00" "MainProcess" 21 "PROG." ("one" ++ String nl ("" ++ String nl "three"))%string in
  well_formed r (list_ascii_of_string "one") [[]; list_ascii_of_string "three"] /\
  string_of_list_ascii (visible (format_plain r)) =
    ("2021-01-01 00:00:00 - MainProcess          PROG.   one" ++ String nl (String nl
     "                                                   three"))%string /\
  21 < String.length "RTprocess combiner 100" /\ ~ In 25 [10; 20; 21; 30; 40; 50].
Proof.
  split; [|split; [reflexivity|split; [vm_compute; lia|simpl; intuition discriminate]]].
  split; [reflexivity|]. split; [repeat constructor; cbv; intuition discriminate|].
  split; [eexists _, _; split; reflexivity|]. split; [cbv; intuition discriminate|]. split; [cbv; intuition discriminate|].
  split; [cbv; intuition discriminate|]. exists "e"%char, (list_ascii_of_string "thre"). split; reflexivity.
Qed.
