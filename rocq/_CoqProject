-Q theories Verif
theories/Base.v
theories/P_Base.v
theories/M_Slice.v
theories/S_Slice.v
theories/P_Slice.v
theories/M_List.v
theories/S_List.v
theories/M_ListApi.v
theories/P_List.v
theories/P_ListThm.v
theories/M_Iter.v
theories/S_Iter.v
theories/P_Iter.v
theories/M_Order.v
theories/S_Order.v
theories/P_Order.v
theories/M_Timsort.v
theories/S_Sort.v
theories/P_TimArr.v
theories/P_TimRuns.v
theories/P_Timsort.v
theories/P_TimsortSafe.v
theories/M_Dict.v
theories/S_Dict.v
theories/M_DictApi.v
theories/P_Probe.v
theories/P_Dict.v
theories/M_Set.v
theories/S_Set.v
theories/M_SetApi.v
theories/P_Set.v
theories/M_Int.v
theories/S_Int.v
theories/P_Int.v
theories/M_Hash.v
theories/T_List.v
theories/T_Iter.v
theories/T_Order.v
theories/T_Timsort.v
theories/T_Dict.v
theories/T_Set.v
theories/T_Int.v
theories/S_Rts.v
theories/M_Rts.v
theories/S_RtsState.v
theories/P_RtsTok.v
theories/P_RtsPlace.v
theories/P_Rts1.v
theories/P_Rts2.v
theories/P_Rts3.v
theories/P_Rts4.v
theories/P_Rts5.v
theories/P_Rts6.v
theories/P_Rts7.v
theories/P_Rts8.v
theories/P_Rts9.v
theories/P_Rts10.v
theories/P_Rts11.v
theories/P_RtsFree.v
theories/P_RtsRun.v
theories/T_Rts.v
theories/M_Key.v
theories/P_Key.v
theories/T_Key.v
theories/M_Wake.v
theories/P_Wake.v
theories/P_WakeRun.v
theories/T_Wake.v
theories/M_Pause.v
theories/S_Pause.v
theories/P_Pause.v
theories/T_Pause.v
theories/M_Bigint.v
theories/S_Bigint.v
theories/P_Bigint.v
theories/P_BigBits.v
theories/P_BigStr.v
theories/T_Bigint.v
theories/M_Netstring.v
theories/S_Netstring.v
theories/P_Netstring.v
theories/T_Netstring.v
theories/M_Serialize.v
theories/S_Serialize.v
theories/P_SerBytes.v
theories/P_Serialize.v
theories/P_SerSim.v
theories/P_SerTotal.v
theories/T_Serialize.v
theories/M_Skiplist.v
theories/S_Skiplist.v
theories/P_Skiplist.v
theories/P_Skiplist2.v
theories/P_Skiplist3.v
theories/T_Skiplist.v
theories/M_Hash32.v
theories/T_Hash32.v
theories/M_VClock.v
theories/S_VClock.v
theories/P_VClock.v
theories/P_VClock2.v
theories/T_VClock.v
theories/M_Ring.v
theories/S_Ring.v
theories/P_Ring.v
theories/T_Ring.v
theories/M_Str.v
theories/S_Str.v
theories/P_Bmh.v
theories/P_Str.v
theories/P_Str2.v
theories/P_Str3.v
theories/P_Str4.v
theories/P_Str5.v
theories/T_Str.v
theories/M_Queue.v
theories/S_Queue.v
theories/P_Queue.v
theories/P_Queue2.v
theories/T_Queue.v
theories/S_Table.v
theories/M_Table.v
theories/P_Table.v
theories/T_Table.v
theories/S_Txn.v
theories/M_Txn.v
theories/P_Txn.v
theories/P_Txn2.v
theories/T_Txn.v
theories/S_Diff.v
theories/M_Diff.v
theories/P_Diff.v
theories/P_Diff2.v
theories/P_Diff3.v
theories/T_Diff.v
theories/S_Uri.v
theories/M_Uri.v
theories/P_Uri.v
theories/P_Uri2.v
theories/T_Uri.v
theories/S_Recovery.v
theories/M_Recovery.v
theories/P_Recovery.v
theories/T_Recovery.v
theories/M_Bytes.v
theories/S_Bytes.v
theories/P_Bytes.v
theories/P_Bytes2.v
theories/P_Bytes3.v
theories/T_Bytes.v
theories/M_Http.v
theories/S_Http.v
theories/S_HttpRun.v
theories/P_Http.v
theories/P_Http2.v
theories/P_Http3.v
theories/P_Http4.v
theories/P_Http5.v
theories/P_Http6.v
theories/T_Http.v
theories/M_Time.v
theories/S_Time.v
theories/P_Time.v
theories/T_Time.v
theories/M_Random.v
theories/S_Random.v
theories/P_Random.v
theories/T_Random.v
theories/S_Bytearray.v
theories/M_Bytearray.v
theories/P_Bytearray.v
theories/P_Bytearray2.v
theories/T_Bytearray.v
theories/S_Glob.v
theories/M_Glob.v
theories/P_Glob.v
theories/T_Glob.v
theories/S_Path.v
theories/M_Path.v
theories/P_Path.v
theories/T_Path.v
theories/S_Argparse.v
theories/M_Argparse.v
theories/P_Argparse.v
theories/P_Argparse2.v
theories/T_Argparse.v
theories/S_Xml.v
theories/M_Xml.v
theories/P_Xml.v
theories/P_Xml2.v
theories/P_Xml3.v
theories/T_Xml.v
theories/S_Json.v
theories/M_Json.v
theories/P_Json.v
theories/T_Json.v
theories/S_Control.v
theories/M_Control.v
theories/P_Control.v
theories/T_Control.v
theories/S_Names.v
theories/M_Names.v
theories/P_Names.v
theories/T_Names.v
theories/S_Quorum.v
theories/M_Quorum.v
theories/P_Quorum.v
theories/T_Quorum.v
theories/M_Commit.v
theories/P_Commit.v
theories/T_Commit.v
theories/S_Cps.v
theories/M_Cps.v
theories/P_Cps.v
theories/P_CpsSim.v
theories/T_Cps.v
theories/S_Hoist.v
theories/M_Hoist.v
theories/P_Hoist.v
theories/T_Hoist.v
theories/S_Lit.v
theories/M_Lit.v
theories/P_Lit.v
theories/P_Lit2.v
theories/T_Lit.v
theories/S_Incr.v
theories/M_Incr.v
theories/P_Incr.v
theories/P_Incr2.v
theories/P_Incr3.v
theories/T_Incr.v
theories/S_Fmt.v
theories/M_Fmt.v
theories/P_Fmt.v
theories/P_Fmt2.v
theories/P_Fmt3.v
theories/T_Fmt.v
theories/S_Mro.v
theories/M_Mro.v
theories/P_Mro.v
theories/P_Mro2.v
theories/T_Mro.v
theories/S_Unify.v
theories/M_Unify.v
theories/P_Unify.v
theories/P_Unify2.v
theories/T_Unify.v
theories/S_Sub.v
theories/M_Sub.v
theories/P_Sub.v
theories/P_Sub2.v
theories/P_Sub3.v
theories/T_Sub.v
theories/S_Lub.v
theories/M_Lub.v
theories/P_Lub.v
theories/T_Lub.v
