-Q theories Verif

theories/Base.v
theories/Bytes.v
theories/MaxHistory_Spec.v
theories/MaxHistory_Model.v
theories/MaxHistory_Proofs.v
theories/MaxHistory_Props.v
theories/Ringbuffer_Model.v
theories/Ringbuffer_Proofs.v
theories/Ringbuffer_Props.v
theories/SetIntersection_Spec.v
theories/SetIntersection_Model.v
theories/SetIntersection_Proofs.v
theories/SetIntersection_Props.v
theories/Ranges_Model.v
theories/Ranges_Proofs.v
theories/Ranges_Props.v
theories/StringUtil_Spec.v
theories/StringUtil_Model.v
theories/StringUtil_Proofs.v
theories/StringUtil_Props.v
theories/MatView_Model.v
theories/MatView_Spec.v
theories/MatView_Proofs.v
theories/MatView_Props.v
theories/AnyPtr_Model.v
theories/AnyPtr_Proofs.v
theories/AnyPtr_Props.v
theories/StopSignal_Model.v
theories/StopSignal_Spec.v
theories/StopSignal_Proofs.v
theories/StopSignal_Props.v
theories/CopyPtr_Model.v
theories/CopyPtr_Spec.v
theories/CopyPtr_Proofs.v
theories/CopyPtr_Props.v
theories/Lut_Model.v
theories/Lut_Props.v
theories/Timers_Model.v
theories/Timers_Spec.v
theories/Timers_Proofs.v
theories/Timers_Props.v
theories/Dl_Model.v
theories/Dl_Props.v
theories/Trace_Model.v
theories/Trace_Spec.v
theories/Trace_Proofs.v
theories/Trace_Props.v
theories/Batch_Model.v
theories/Batch_Spec.v
theories/Batch_Proofs.v
theories/Batch_Props.v
theories/EigenView_Model.v
theories/EigenView_Props.v
theories/Streambuf_Spec.v
theories/Streambuf_Model.v
theories/Streambuf_Proofs.v
theories/Streambuf_Props.v
theories/Redirect_Model.v
theories/Redirect_Spec.v
theories/Redirect_Props.v
theories/Duration_Model.v
theories/Duration_Spec.v
theories/Duration_Proofs.v
theories/Duration_Round.v
theories/Duration_WF.v
theories/Duration_Props.v
theories/TypeErased_Spec.v
theories/TypeErased_Model.v
theories/TypeErased_Trace.v
theories/TypeErased_Inv.v
theories/TypeErased_Proofs.v
theories/TypeErased_Main.v
theories/TypeErased_Obs.v
theories/TypeErased_Final.v
theories/TypeErased_Props.v
theories/Sparsity_Spec.v
theories/Sparsity_Model.v
theories/Sparsity_Base.v
theories/Sparsity_Csc.v
theories/Sparsity_Conv.v
theories/Sparsity_CscCsc.v
theories/Sparsity_ToCoo.v
theories/Sparsity_FromDense.v
theories/Sparsity_ToDense.v
theories/Sparsity_All.v
theories/Sparsity_Into.v
theories/Sparsity_Props.v
theories/SparsityMore_Props.v
theories/ConverterCopy_Props.v
theories/Csv_Spec.v
theories/Csv_Model.v
theories/Csv_Proofs.v
theories/Csv_More.v
theories/Csv_Numbers.v
theories/Csv_Exact.v
theories/Csv_Props.v
theories/Print_Spec.v
theories/Print_Model.v
theories/Print_Proofs.v
theories/Print_Ints.v
theories/Print_Props.v
theories/HlBlas_Model.v
theories/HlBlas_Spec.v
theories/HlBlas_Proofs.v
theories/HlBlas_Routines.v
theories/HlBlas_Props.v
theories/Lapack_Model.v
theories/Lapack_Spec.v
theories/Lapack_Proofs.v
theories/Lapack_Routines.v
theories/Lapack_Reals.v
theories/Lapack_Props.v
theories/FromChars_Model.v
theories/FromChars_Spec.v
theories/FromChars_Proofs.v
theories/FromChars_Props.v
theories/FloatIO_Spec.v
theories/FloatIO_Model.v
theories/FloatIO_Proofs.v
theories/FloatIO_Props.v
theories/Trace_History_Spec.v
theories/Trace_History_Proofs.v
theories/Trace_History_Props.v
theories/SparseOps_Spec.v
theories/SparseOps_Proofs.v
theories/SparseOps_Props.v
theories/EigenSparse_Spec.v
theories/EigenSparse_Model.v
theories/EigenSparse_Props.v
theories/DurationMore_Props.v
theories/BatchBlas_Spec.v
theories/BatchBlas_Model.v
theories/BatchBlas_Proofs.v
theories/BatchBlas_Potrf.v
theories/BatchBlas_Props.v
theories/StreambufThrow_Spec.v
theories/StreambufThrow_Model.v
theories/StreambufThrow_Proofs.v
theories/StreambufThrow_Props.v
theories/StreambufExact_Props.v
theories/TraceLine_Spec.v
theories/TraceLine_Model.v
theories/TraceLine_Props.v
theories/DurationError_Props.v
theories/Stod_Model.v
theories/Stod_Spec.v
theories/Stod_Proofs.v
theories/Stod_Props.v
theories/CsvStrtod_Model.v
theories/CsvStrtod_Props.v
theories/DurationRange_Props.v
theories/ScopedLog_Model.v
theories/ScopedLog_Spec.v
theories/ScopedLog_Props.v
theories/ScopedLogItt_Props.v
theories/Visitors_Model.v
theories/Visitors_Props.v
theories/FloatStr_Model.v
theories/FloatStr_Spec.v
theories/FloatStr_Props.v
theories/MatViewExact_Props.v
theories/BatchExact_Props.v
theories/MaxHistoryExact_Props.v
theories/TypeErasedExact_Props.v
theories/SparsityExact_Props.v
theories/SparsityInto_Props.v
theories/TraceSlots_Proofs.v
theories/TraceSlots_Props.v
theories/DurationExact_Props.v
theories/SetIntersectionAny_Props.v
theories/TimersFloat_Model.v
theories/TimersFloat_Props.v
theories/TimersRange_Model.v
theories/TimersRange_Props.v
theories/PrintfG_Model.v
theories/PrintfG_Proofs.v
theories/PrintfG_Props.v
theories/MatViewAlias_Model.v
theories/MatViewAlias_Props.v
theories/MatViewOverlap_Props.v
theories/MatViewIndex_Model.v
theories/MatViewIndex_Props.v
theories/EigenViewIndex_Model.v
theories/EigenViewIndex_Props.v
theories/Dispatch_Spec.v
theories/Dispatch_Model.v
theories/Dispatch_Proofs.v
theories/Dispatch_Props.v
theories/TypeErasedAlign_Model.v
theories/TypeErasedAlign_Props.v
theories/BadType_Model.v
theories/BadType_Props.v
theories/Sparsity20_Model.v
theories/Sparsity20_Props.v
theories/CsvFault_Model.v
theories/CsvFault_Proofs.v
theories/CsvFault_Exact.v
theories/CsvFault_Props.v
theories/PrintStream_Model.v
theories/PrintStream_Proofs.v
theories/PrintStream_Props.v
theories/DlLife_Model.v
theories/DlLife_Proofs.v
theories/DlLife_Props.v
theories/FloatWide_Model.v
theories/FloatWide_Spec.v
theories/FloatWide_Proofs.v
theories/FloatWide_Props.v
theories/CsvAny_Spec.v
theories/CsvAny_Proofs.v
theories/CsvAny_Props.v
theories/TraceRace_Model.v
theories/TraceRace_Spec.v
theories/TraceRace_Proofs.v
theories/TraceRace_Props.v
theories/StopSync_Model.v
theories/StopSync_Spec.v
theories/StopSync_Props.v
theories/FlopCount_Model.v
theories/FlopCount_Spec.v
theories/FlopCount_Proofs.v
theories/ConverterCopy_Spec.v
theories/ConverterCopy_Model.v
theories/ConverterCopy_Proofs.v
theories/ConverterCopy_Loan.v
theories/MatViewRelease_Model.v
theories/MatViewRelease_Spec.v
theories/MatViewRelease_Proofs.v
theories/MatViewRelease_Props.v
theories/RingIndex_Model.v
theories/RingIndex_Spec.v
theories/RingIndex_Proofs.v
theories/RingIndex_Props.v
theories/HlBlasExact_Spec.v
theories/HlBlasExact_Proofs.v
theories/HlBlasExact_Props.v
theories/PrintStreamInt_Spec.v
theories/PrintStreamInt_Proofs.v
theories/PrintStreamInt_Props.v
theories/PrintSpan_Props.v
theories/Locale_Model.v
theories/Locale_Spec.v
theories/Locale_Proofs.v
theories/Locale_Props.v
theories/StodHex_Spec.v
theories/StodHex_Props.v
theories/Formats_Props.v
theories/StreambufNest_Model.v
theories/StreambufNest_Props.v
theories/StreambufSmall_Props.v
theories/ConverterAssign_Spec.v
theories/ConverterAssign_Model.v
theories/ConverterAssign_Proofs.v
theories/ConverterAssign_Props.v
theories/MaxHistoryNan_Spec.v
theories/MaxHistoryNan_Proofs.v
theories/MaxHistoryNan_Props.v
theories/LapackError_Model.v
theories/LapackError_Props.v
theories/RedirectState_Model.v
theories/RedirectState_Spec.v
theories/RedirectState_Props.v
theories/CsvFaultWhole_Props.v
theories/DlError_Model.v
theories/DlError_Spec.v
theories/DlError_Props.v
theories/Macros_Model.v
theories/Macros_Props.v
theories/DurationReport_Model.v
theories/DurationReport_Spec.v
theories/DurationReport_Props.v
theories/CsvPartial_Model.v
theories/CsvPartial_Spec.v
theories/CsvPartial_Props.v
theories/CsvText_Model.v
theories/CsvText_Spec.v
theories/CsvText_Proofs.v
theories/CsvText_Props.v
