# id -> (status, theorems, note)
C={}
def c(id,status,theorems,note=''):
    assert id not in C, id
    C[id]=(status,theorems.split(),note)
c('C01','proved','C01_roundtrip C01_wire_format C01_empty_struct_refuted',
  'Round trip for every type of the universe except empty structs/tuples, for which the code always reports failure (C01_empty_struct_refuted).')
c('C02','proved','C02_size','Every type that has a serializedSize overload (no variant).')
c('C03','proved','C03_batch')
c('C04','proved','C04_prefix_free')
c('C05','partial','C05_stream C05_sticky C05_reset C05_in_bounds C05_huge_size_refuted',
  'Holds for read sizes below 2^63 and for every use of the stream by deserialize; refuted for sizes near 2^64 (pos+size wraps). clear() does not revive a failed stream (Good is never set again), reset() does.')
c('C06','partial','C06_truncated_sets_fail C06_truncated_returns_false_partial C06_truncated_returns_false_refuted C06_accepted_input_is_an_encoding C06_bad_variant_index_swallowed_refuted',
  'The stream fail bit is always set; the return value reports it only for the types in [reports]; refuted for sequences, maps, pairs, structs, pointers.')
c('C07','partial','C07_bounded_refuted C07_uninitialised_refuted C07_bounded_partial',
  'Refuted: 4 bytes give any number (<2^32) of elements. Proved when the stream did not fail.')
c('C08','partial','C08_into_existing C08_overwrites_partial C08_overwrites_refuted',
  'Exact result of reading into an existing object proved for all types; overwriting refuted for sequences, maps and empty strings.')
c('C99','partial','C99_failed_read_keeps_partial C99_failed_read_keeps_refuted','Proved for every type built from numbers, containers, smart pointers and variants; refuted for strings and raw pointers.')
c('C09','proved','C09_error_roundtrip C09_data_roundtrip C09_truncated','Round trip for error and data payloads; null payloads see C10. Also: no strict prefix of a message is taken for an intact one.')
c('C10','partial','C10_null_payload_refuted','Refuted for every payload-less message; exact observable behaviour proved (empty data payload, translation gives null + SourceCorrupted).')
c('C11','proved','C11_framing C11_transport C11_split_length_refuted','Any chunking of the body; the 4 length bytes must arrive in one read (otherwise the message is lost: C11_split_length_refuted).')
c('C12','partial','C12_no_overflow_partial C12_overflow_refuted C12_termination_refuted','Safe only for peers that send at most what they announced; overflow and endless loop refute the full claim.')
c('C13','partial','C13_success_means_sent_partial C13_only_a_prefix C13_success_means_sent_refuted C13_oversize_refuted','Holds when no write fails; refuted when one does and for payloads of 2^32 bytes or more.')
c('C14','proved','C14_ids_unique C14_allocation_terminates')
c('C15','partial','C15_address_order_same_port_partial C15_address_order_same_name_partial C15_address_order_refuted','operator< is a strict order among addresses with the same port or the same name; refuted in general (not even asymmetric).')
c('C16','partial','C16_regid_order_partial C16_regid_order_refuted C16_same_operation_equivalent_refuted','A strict partial order (irreflexive, transitive); not a strict weak order, and any two ids of one operation are equivalent.')
c('C57','partial','C57_socket_name C57_port_ignored_refuted','Exact characterisation of socket identity proved; the ports-matter half is refuted.')
c('C17','proved','C17_request_dispatch C17_handlers_called_only_for_requests')
c('C18','proved','C18_at_most_one_final_per_request_message C18_at_most_one_final C18_replies_exact C18_no_undefined_behaviour C18_colliding_ids_refuted')
c('C19','proved','C19_partial_update_keeps_open C19_replies_only_from_replying C18_replies_exact C19_update_after_final_refuted','Sequential histories; the racing case is refuted (C19_update_after_final_refuted, counted under C22).')
c('C20','proved','C20_abort_exact C20_abort_unknown C20_callback_at_most_once_partial C20_callback_race C18_replies_exact C20_callback_twice_after_deinit_refuted C20_callback_without_abort_refuted','The at-most-once theorem excludes histories with deinit, after which it is refuted.')
c('C21','partial','C21_other_keys_do_not_interfere_partial C21_abort_by_other_client_refuted','Proved for requests with different keys; refuted: an abort is matched by request id alone.')
c('C22','partial','C22_one_outcome C22_safe_partial C22_null_dereference_refuted C19_update_after_final_refuted','At most one final outcome always; no null dereference if at most one of the concurrent calls answers or aborts; refuted otherwise.')
c('C23','proved','C23_get_status C23_status_get_request C23_unchanged_is_silent C23_change_notifies_subscribers C23_null_over_unset_notifies_refuted')
c('C24','proved','C24_notifications_exact C24_subscriber_in_step')
c('C25','proved','C25_unreachable_dropped_busy_retried')
c('C26','partial','C26_broadcast_result_partial C26_inverted_refuted','Exact result proved; it is the opposite of the documented one.')
c('C27','partial','C27_deinit_clears C27_deinit_refuses_replies C27_deinit_runs_callbacks_once_partial C27_second_deinit_repeats_refuted','Tables empty and late replies refused always; callbacks once for the first deinit, refuted for a second one.')
c('C58','proved','C58_server_side_listeners')

c('C28','proved','C28_answer_runs_the_callback_once C28_at_most_one_final_answer C28_only_its_own_answers C28_unknown_id_runs_nothing','Fewer than 2^64-1 calls.')
c('C29','proved','C29_aborted_request_is_never_answered C29_no_answer_after_service_lost C29_no_answer_after_deinit C29_abort_sent_at_most_once C29_abort_of_pending_request_is_sent','For asynchronous requests; the abort sent by a synchronous request that timed out is in C35.')
c('C30','proved','C30_failed_request_is_never_answered C30_failed_registration_is_never_called C30_failed_request_changes_nothing','Equality of all later behaviour is proved for a failing call that did not overlap others; for overlapping calls: its callback is never run.')
c('C31','proved','C31_register_sent_for_first_subscriber_only C31_unregister_sent_when_none_is_left C31_unregister_all_sends_one')
c('C32','proved','C32_update_reaches_each_subscriber_once C32_never_more_than_once C32_only_its_own_updates C32_in_registration_order C32_not_called_after_service_lost C32_not_called_after_unregister')
c('C33','proved','C33_known_status_is_answered_locally C33_late_subscriber_gets_the_last_update')
c('C34','proved','C34_each_change_is_told_once C34_statuses_change C34_told_in_order C34_new_observer_is_told_at_once')
c('C35','proved','C35_every_return_has_a_reason C35_returns_once C35_nothing_after_the_return C35_answered_call_returns C35_bounded_call_returns C35_call_returns_when_service_lost','Progress is stated as: after eight further steps of the call.')
c('C59','partial','C59_request_survives_loss_of_service_refuted','Refuted by a concrete schedule; C29 is the part that holds.')
c('C60','partial','C60_stale_unregister_is_sent_refuted C60_racing_registration_without_register_refuted','Refuted; C31 is the part that holds.')
c('C61','partial','C61_status_survives_service_restart_refuted C61_null_status_update_refuted','Refuted; C33 is the part that holds.')
c('C62','partial','C62_change_told_twice_refuted C62_stale_status_told_last_refuted','Refuted; C34 is the part that holds.')
c('C63','partial','C63_final_after_partial_throws_refuted C63_unbounded_wait_after_loss_refuted','Refuted; C35 is the part that holds.')
c('C39','proved','C39_first_in_first_out C39_each_call_at_most_once C39_every_push_arrives C39_every_sequence_arrives C39_earlier_push_is_in_front C39_size_is_exact')
c('C40','proved','C40_closed_queue_gives_and_takes_nothing C40_close_wakes_the_sleeping C40_woken_consumer_returns C40_no_sleep_beside_an_element')
c('C64','partial','C64_refuted','Refuted: no step of any call releases the consumer. C40 is the part that holds.')
c('C65','partial','C65_no_undefined_behaviour_without_reopen_partial C65_refuted','Refuted with reOpen, proved without.')
c('C49','proved','C49_only_connected_slots_in_order C49_nobody_is_missed C49_emission_goes_on')
c('C50','proved','C50_connected_is_exact C50_disconnect C50_reconnect C50_scoped_connection C50_dead_objects_are_not_called C50_destroyed_signal_calls_nobody','For connections of slots given by value; a SlotPtr may be connected several times, and then connected() tells whether it is connected at all.')
c('C51','partial','C51_safe_partial C51_clear_inside_a_slot_refuted C51_throwing_slot_refuted','Proved when no slot throws, clears or emits; refuted otherwise.')
c('C52','proved','C52_at_most_one_slot C52_first_slot_is_kept C52_one_call_per_emission C52_the_slot_is_called')
c('C100','proved','C100_empty_handed_for_cause C100_empty_is_exact C100_is_closed_is_exact C100_consumer_takes_what_is_there C100_reopen_opens C39_size_is_exact','')
c('C101','proved','C101_never_stuck C101_priority_queue_never_stuck C101_everything_is_handed_out','')
c('C66','partial','C66_count_partial C66_connected_partial C66_refuted','Refuted after a disconnect inside an emission; lower bound always, exact otherwise.')
c('C67','partial','C67_except_the_shared_mutex_one_partial C67_refuted','Refuted for SharedMutexSCSignal.')
c('C68','partial','C68_kept_connections_partial C68_dead_object_refuted C68_self_cutting_slot_refuted','Refuted for self-owning slots; proved for kept plain slots.')
c('C53','proved','C53_value_and_signal C53_set_the_same C53_set_another C53_everybody_learns C53_told_the_current_value C53_told_a_value_that_was_set C53_silent_set C53_reference C53_new_observer C53_new_observer_is_told C53_set_all_the_same C53_set_all_another C53_only_observers_are_told C53_observers_were_accepted C53_refused')
c('C54','proved','C54_is_an_observable C54_mirrors','The variants with an executor are not modelled.')
c('C69','partial','C69_callable_objects_partial C69_refuted','Proved for callable objects, refuted for the other overloads.')
c('C70','partial','C70_up_to_date_partial C70_nested_references_refuted C70_set_in_an_observer_refuted','Proved for callable observers whose observable has announced its last change; refuted otherwise.')
c('C71','partial','C71_changed_directly_refuted C71_silent_component_refuted','Refuted; C54 is the part that holds.')
c('C46','proved','C46_only_running_timers_fire C46_stopped_timer_is_silent C46_one_shot_fires_once C46_never_early C46_running C46_in_order C46_sleeps_until_the_first C46_fires_when_due C46_no_undefined_behaviour')
c('C47','proved','C47_never_before_its_time C47_no_sleep_beyond_it')
c('C48','proved','C48_restart_defers C48_restart_is_due')
c('C72','partial','C72_timer_lost_and_processor_hung_refuted C72_fires_early_refuted','Refuted; C46 is the part that holds.')
c('C73','partial','C73_silent_partial C73_stopped_elsewhere_refuted','Refuted; the timer is silent.')
c('C74','partial','C74_restarted_timer_is_dead_refuted C74_restart_of_the_only_timer_refuted','Refuted; C48 is the part that holds.')
c('C75','partial','C75_started_by_its_callback_refuted','Refuted.')
c('C41','proved','C41_in_order C41_at_most_once C41_started_in_order C41_one_at_a_time C41_nothing_after_stop C41_starts_after_stop C41_refused_never_runs C41_accepted C41_no_lost_wakeup')
c('C42','proved','C42_refused C42_taken C42_handled C42_nobody_missed C42_connect C42_disconnect')
c('C43','proved','C43_inline_is_own C43_queued_is_other C43_runs_before_return C43_queued_before_return C43_not_refused C43_refused_when_stopped')
c('C76','partial','C76_true_but_dropped_refuted C76_future_without_task_refuted','Refuted; C41_accepted is the part that holds.')
c('C77','partial','C77_taken_without_handler_refuted','Refuted; C42_taken is the part that holds.')
c('C78','partial','C78_own_type_inside_handler_refuted C78_only_then_partial','Refuted; no other way to fail the assertion.')
c('C79','partial','C79_deadlock_refuted','Refuted.')
c('C80','partial','C80_nested_run_refuted','Refuted; C43 is the part that holds.')
c('C81','partial','C81_foreign_thread_refuted','Refuted; C43_inline_is_own is the part that holds.')

c('C55','proved','C55_at_most_once C55_order C55_every_task_is_finished C55_quiet_after_shutdown C55_nothing_happens_after_shutdown C55_stops_what_is_executed','All three pools, any number of threads; run/stop/done of a task are events; null tasks and exceptions are not modelled.')
c('C56','proved','C56_highest_priority_first C56_nothing_is_lost C56_thread_takes_highest_priority C56_thread_takes_oldest','')
c('C82','partial','C82_shutdown_hangs_refuted','The code violates the property; the theorem shows it for every continuation without spurious wake-ups.')
c('C83','partial','C83_task_forgotten_refuted','The code violates the property; the strongest true version is C55_every_task_is_finished.')
c('C84','partial','C84_run_after_shutdown_refuted C84_fixed_pools_partial','Violated for the dynamic pool, proved for the others.')
c('C85','partial','C85_started_after_stop_refuted C85_stopped_before_start_refuted','The code violates the property; what it does guarantee is C55_stops_what_is_executed.')
c('C44','proved','C44_join_only_when_free C44_leave_only_by_stop C44_find_tells_the_joined_one C44_second_creation_yields_null C44_created_is_joined C44_post_reaches_the_joined_one C44_post_to_all')
c('C45','proved','C45_stop_removes_only_itself C45_stopped_has_left C45_stays_joined C45_other_ids_untouched')
c('C86','partial','C86_both_created_one_reachable_refuted','Refuted for every continuation; C44_created_is_joined is the part that holds.')
c('C87','partial','C87_successor_removed_refuted C87_successor_removed_by_second_stop_refuted','Refuted; C45 is the part that holds.')
c('C88','partial','C88_reused_not_reachable_refuted C88_never_joins_again','Refuted for every continuation and, as C88_never_joins_again, for every history.')
c('C89','partial','C89_told_of_new_processor C89_told_of_leaving_processor C89_new_processor_told_nothing_refuted','The first part is proved, the second refuted for every history.')
c('C90','partial','C90_calls_return_partial C90_send_to_all_hangs_refuted','Proved without re-entrant handlers, refuted with them.')

c('C37','proved','C37_same_provider C37_one_service_per_provider C37_server_dispatch C37_same_requester C37_one_service_per_requester C37_client_dispatch','Every interleaving of any number of threads on the server and on the client; until deinit().')
c('C38','proved','C38_clients_are_told C38_nothing_told_without_provider C38_answers C38_requesters_are_told C38_end_to_end C38_end_to_end_requester','Server side, client side and both composed; concurrent threads. Violations outside the hypotheses are C91, C92, C93, C96.')
c('C91','partial','C91_deinit_tells_nobody_refuted','Refuted; true for single services by C38_clients_are_told.')
c('C92','partial','C92_clients_agree_partial C92_start_stop_race_refuted','Proved for one start/stop at a time, refuted for concurrent ones.')
c('C93','partial','C93_refused_update_is_lost_refuted','Refuted; with accepted messages true by C38_clients_are_told.')
c('C94','partial','C94_leaving_never_unregisters C94_gone_client_still_notified_refuted','Refuted.')
c('C95','proved','C95_registers_until_sent C95_registers_once','')
c('C96','partial','C96_restarted_server_unnoticed_refuted','Refuted; C95_registers_once shows that no further registration is sent.')
c('C36','proved','C36_answers_are_never_mixed_up C36_at_most_one_final_answer C36_synchronous_result_is_the_servers','One client with any number of threads composed with the provider (any other clients) through a network that may lose, duplicate and reorder but not invent; fewer than 2^64-1 calls.')
c('C97','proved','C97_get_callback C97_get_result','Same composition as C36.')
c('C98','proved','C98_subscribers_see_real_values','Same composition as C36.')

c('C102','proved','C102_connect C102_connect_ptr C102_disconnect_ptr C102_disconnect_all C102_emit C102_emission_once C102_nothing_after_the_end','')
c('C103','partial','C103_fixed_pools C103_dynamic_pool_limit C103_dynamic_pool_exact C103_never_fewer C103_dynamic_pool_limit_refuted','Proved for the fixed pools and for a dynamic pool whose run() calls do not overlap; refuted for overlapping ones. setMaxThreadCount is not modelled.')
c('C104','proved','C104_every_task_gets_executed C104_idle_when_done','')
c('C105','proved','C105_shutdown_completes','The wake-ups the code itself may lose are C82.')

c('C106','proved','C106_stopped C106_stopped_changes C106_new_is_not_stopped C106_stop C106_reuse C106_pending C106_connected C106_table_changes C106_disconnect_type C106_disconnect_one C106_reconnect C106_handlers_change','')
c('C107','partial','C107_not_connected_partial C107_connected_refuted','The property is false of the code: the answer is about the table entry, not about handlers.')
c('C108','partial','C108_reconnected_partial C108_reconnected_refuted','Proved when disconnect(type) is never called on the processor; refuted otherwise.')
c('C109','proved','C109_run_loop','Deadlines are a scheduler action (ATimeout), so "its time was up" is an action of the history.')
c('C110','proved','C110_send_to_all C110_post_to_all_once C110_stop_closes C110_reuse_opens C110_connect_listens C110_disconnect_silences C110_causes C110_who_posts','')
c('C111','proved','C111_register_handler C111_unregister_handler C111_start_announces C111_only_start_and_stop_announce C111_availability C111_foreign_message C111_unregister C111_silent C111_on_aborted C111_everything_sent','')
c('C112','proved','C112_course C112_course_so_far C112_only_observers_are_told C112_unobserved_is_not_told C112_thrown_observer_is_dropped','')
c('C115','partial','C115_reports_partial C115_second_subscription_refuted C115_abort_refuted C115_get_status_refuted','Every call except registerSignal and abortRequest reports an outcome; refuted for those two, and the success reported by getStatus with a callback can be wrong.')
c('C113','proved','C113_has_provider C113_everything_told C113_unregistered_is_not_told C113_unreachable_is_forgotten C113_unregister_reaches_all C113_freed_at_most_once C113_deinit_frees_all C113_freed_by_deinit_only C113_new_after_deinit C113_results','')
c('C114','proved','C114_has_requester C114_everything_told C114_registered_when_present C114_unregistered_by_deinit C114_deinit_unregisters_known C114_freed_at_most_once C114_deinit_frees_all C114_freed_by_deinit_only C114_new_after_deinit C114_forgotten C114_results','The server must not have been lost meanwhile and deinit called once for the exact count of unregistrations.')
c('C116','proved','C116_every_request_is_answered C116_open_request_is_somewhere C116_one_place C116_replies_through_handle C116_valid_means_unanswered C116_move','')
c('C117','proved','C117_register C117_no_executor C117_request_reaches_the_executor C117_task_calls_the_function C117_only_the_function C117_at_most_once C117_bad_call_only_if_empty','')
c('C118','partial','C116_refused_task_never_answered_refuted C116_overwritten_handle_refuted C117_empty_handler_accepted_refuted C116_open_request_is_somewhere','Refuted in three ways; these are the only ways in which an open request gets out of reach (C116_open_request_is_somewhere).')
c('C119','proved','C119_below C119_refused C119_only_what_arrived C119_never_used_up C119_nothing_lost C119_in_order C119_results C119_sync_response C119_error_means C119_answered_at_most_once','')
c('C120','partial','C120_no_executor_no_answer_refuted C120_refused_signal_unreported_refuted C120_corrupted_content_passed_on_refuted C119_refused','Refuted: sendRequestAsync without executor sends the request and never calls back; a refused registerSignal<Signal> leaves callStatus unassigned; SourceCorrupted content is passed on. The other refusals are reported (C119_refused).')
c('C121','proved','C121_ready C121_interrupted C121_timeout C121_current C121_told_and_stopped_by_calls C121_returns_once C121_no_lost_wakeup C121_timed_returns C121_others_never_block','')
c('C122','partial','C122_short_change_is_missed_refuted C122_ready_without_news_refuted C121_no_lost_wakeup','Refuted: a status that changes back before the waiter looks is missed (the wait goes on forever); a fresh signal answers Ready for Unavailable without having been told anything. If the status stays, the wait returns (C121_no_lost_wakeup).')
c('C123','proved','C123_never_early C123_stopped_is_silent C123_takes_effect C123_returns C123_running C123_due_fires C123_stop_ends C123_one_shot C123_callback_is_there','')
c('C124','partial','C124_restart_does_nothing_refuted C124_replaced_start_fires_refuted C124_nested_start_cannot_be_stopped_refuted C124_empty_callback_refuted C123_stop_ends','Refuted in four ways: restart() only wakes the waiter, which goes on waiting; the replaced start may overlook that it was stopped, fires, and its return switches the new start off; a start made by the callback waits with the mutex held; the callback is moved into the executor and empty if the timer was made cyclic meanwhile. With a single start in progress stop() works (C123_stop_ends).')
c('C125','proved','C125_same_for_everyone C125_one_inside_the_process C125_different_otherwise C125_null_only_when C125_unknown_type_null C125_got_is_connected C125_failed_never_started C125_connected_once C125_started_once C125_only_shutdown_closes C125_taken_down_once C125_shutdown_complete C125_stop_before_deinit C125_new_server_after_shutdown C125_returns_once C125_never_deadlocks','A provider made on an already closed server is excepted from being taken down (C126).')
c('C126','partial','C126_closed_clients_are_handed_out_refuted C126_in_process_never_taken_down_refuted C126_provider_on_closed_server_refuted C125_shutdown_complete C125_new_server_after_shutdown','Refuted in three ways: closed clients stay in the factory and are handed out again, stopped, without a new init; requesters and providers inside the process are never taken down; a get that overlaps with shutdownAllServers makes a provider on a closed server which no later shutdown finds. The true part: C125_shutdown_complete, C125_new_server_after_shutdown.')
c('C127','proved','C127_slot C127_once C127_returns_once C127_results C127_true_iff_slot C127_notify_reaches C127_first_notification C127_cancelled C127_broken C127_own_connection C127_wait_returns C127_time_up C127_fired_is_handled','')
c('C128','partial','C128_wait_after_cancel_hangs_refuted C128_missed_notification_refuted C128_slot_after_cancel_refuted C128_empty_only_if_lost C128_cancel_before_firing_partial','Refuted in three ways: an untimed wait on a connection cancelled before it fired never returns (the connection keeps the slot with its promise for a reconnect); a notification between connect and the check connected() is lost and an empty FutureInvocation is returned; cancel after the firing does not prevent the slot from being called. True: a cancel that returns before the firing prevents the call for good.')
c('C129','proved','C129_every_slot_in_order C129_who_runs_it C129_run_on_processor C129_at_most_once C129_in_order C129_nothing_lost C129_blocking_waits C129_posted_is_dealt_with C129_notify_returns C129_call_returns C129_returns','')
c('C130','partial','C130_run_after_disconnect_refuted C130_silently_lost_refuted C130_overtaken_refuted C130_deadlock_refuted C130_after_disconnect_partial C130_async_in_order_partial','Refuted in four ways: a slot with the default or asynchronous executor runs after disconnect returned; notify returns though a stopped processor refused the value; with the default executor code on the processor overtakes the queue; with the blocking executor notify waits for the processor with the mutex held, and code on the processor that uses the signal waits for it: neither returns until the processor is stopped. True: after disconnect nothing new is handed over, and without executor, with the direct or the blocking one nothing runs; the asynchronous executor keeps the order.')
c('C131','proved','C131_launch C131_run_order C131_ends_only_if_stopped C131_running_exact C131_wait_means_ended C131_nothing_left C131_no_stray C131_assign_waits C131_threw C131_stop_wait_returns C131_returns_once','')
c('C132','partial','C132_launch_does_nothing_refuted C132_assign_blocks_refuted C132_self_wait_refuted C132_lost_stop_refuted C132_reuse_overtakes_refuted C132_terminate_refuted C131_stop_wait_returns','Refuted in six ways: launch starts nothing if the outcome of a thread that has ended was not collected by a wait, and running() says true; move assignment waits for the old thread without stopping its processor; stopAndWait by an execution waits for its own thread; stop, which does not take the mutex of the queue, may wake nobody just before the thread goes to sleep; reuse takes back a stop that the thread has not noticed; if an execution threw, the destructor ends the program. True: a wait on a stopped processor can always end by its own steps and those of the thread, spurious wake-ups included, if the thread is not within an execution (C131).')
c('C133','proved','C133_call_exact C133_composition C133_throw C133_valid_exact C133_then_exact','')
c('C134','partial','C134_then_empties_the_chain_refuted C134_valid_but_throws_refuted C134_connected_is_inverted_refuted C134_no_dud_partial','Refuted in three ways: then moves the functions out of the chain, which then returns the default value; a chain made by then from such a chain says it is valid and always throws; connected() is the negation of valid(). True: if no chain is used to make another after then was called on it, every other chain runs its functions.')
